(** C53: rmultinom draws multinomial counts that add up to the number of trials; a zero after the probabilities reach 1 is undefined behaviour. *)
From Coq Require Import ZArith QArith Reals Lra Lia List.
From Verif Require Import Spec SpecLaw Num ER ERTac Vec Rand Seed SpecRand SpecDraw RandER RandMore RandWit Witness WitnessSF Multin MultinLaw.
Import ListNotations.
Local Open Scope R_scope.


(** The number of trials is the number of categories (rand/rmultinom.ipp 38-41 takes no trial count).
    [dev] is the random device that seeds the engine of the first binomial draw, [w] its state.  The
    last probability is positive; the others may be 0.  *)

Theorem C53_rmultinom : forall (S : SF) (E D : Type) (G : Rng ER E), rng_ok G -> forall (dev : D -> Z * D) (p : R) (ps : list R) (e : E) (w : D),
  let n := length (p :: ps) in
  (Z.of_nat n < 2 ^ 63)%Z -> Forall (fun p : R => 0 <= p) (p :: ps) -> 0 < last (p :: ps) 0 -> Rsum (p :: ps) = 1 ->
  exists (k : nat) (e1 : E) (ks : list nat) (e' : E),
    rmultinom (N:=ER_Num S) G dev er_to_size (map Fin (p :: ps)) e w =
      Ok (map (fun k : nat => Fin (INR k)) (k :: ks), e', snd (dev w)) /\
    binomial_draw G n p (g_mk G (fst (dev w))) k e1 /\ count_draws G (n - k) p ps e ks e' /\
    length (k :: ks) = n /\ nsum (k :: ks) = n.
Proof. exact @rmultinom_draws. Qed.
Print Assumptions C53_rmultinom.
Example C53_rmultinom_ex (w : Z) : exists ks e', rmultinom (N:=ER_Num SF0) counting (fun w => (w, w)) er_to_size [Fin (1 / 2); Fin 0; Fin (1 / 2)] 7%nat w =
  Ok (map (fun k : nat => Fin (INR k)) ks, e', w) /\ nsum ks = 3%nat.
Proof.
  destruct (C53_rmultinom SF0 nat Z counting counting_ok (fun w => (w, w)) (1 / 2) [0; 1 / 2] 7%nat w) as (k & e1 & ks & e' & H & _ & _ & _ & Q).
  - reflexivity.
  - apply Forall_cons; [lra|]. apply Forall_cons; [lra|]. apply Forall_cons; [lra|apply Forall_nil].
  - cbn. lra.
  - cbn. lra.
  - exists (k :: ks), e'. split; [exact H|exact Q].
Qed.

(** Counts drawn in this way have the multinomial probabilities. *)

Theorem C53_law : forall (ps : list R) (ks : list nat), length ks = length ps -> Forall (fun p : R => 0 <= p) ps -> 0 < last ps 0 -> Rsum ps = 1 ->
  chain_prob (nsum ks) 0 ps ks = multinom_pmf ps ks.
Proof. exact chain_multinom. Qed.
Print Assumptions C53_law.
Example C53_law_ex : chain_prob 3 0 [1 / 2; 1 / 4; 1 / 4] [2; 0; 1]%nat = 3 * (1 / 2) ^ 2 * (1 / 4).
Proof.
  change 3%nat with (nsum [2; 0; 1]%nat). rewrite C53_law; [unfold multinom_pmf; cbn; lra|reflexivity| |cbn; lra|cbn; lra].
  apply Forall_cons; [lra|]. apply Forall_cons; [lra|]. apply Forall_cons; [lra|apply Forall_nil].
Qed.

Theorem C53_rmultinom_zero_refuted : forall (S : SF) (E D : Type) (G : Rng ER E), rng_ok G -> forall (dev : D -> Z * D) (e : E) (w : D),
  rmultinom (N:=ER_Num S) G dev er_to_size [Fin 1; Fin 0] e w = UB.
Proof. exact @rmultinom_zero_ub. Qed.
Print Assumptions C53_rmultinom_zero_refuted.
Example C53_rmultinom_zero_refuted_ex : rmultinom (N:=ER_Num SF0) counting (fun w : Z => (w, w)) er_to_size [Fin 1; Fin 0] 7%nat 0%Z = UB.
Proof. apply C53_rmultinom_zero_refuted. exact counting_ok. Qed.
