(** C48: runif stays strictly inside its interval (false for adjacent doubles, on overflow, and when uniform_real_distribution returns its upper end, as libstdc++ does). *)
From Coq Require Import ZArith QArith Reals Lra Lia.
From Verif Require Import Num Sanity B64 Rand MT RandB64 RandB64b B64Unif.
From Flocq Require Import IEEE754.BinarySingleNaN.
Local Open Scope R_scope.


(** [next_ok G a b]: nextafter(a,b) is the next double above a; the hypotheses on [u] are the
    promise of the standard.  Partial: they cannot be met for adjacent doubles a, b, and libstdc++ breaks
    them. *)

Theorem C48_strict_partial : forall (F : TF) (E : Type) (G : Rng b64 E) (a b : b64) (e : E) (u : b64) (e' : E),
  fin a -> fin b -> B2R a < B2R b -> next_ok G a b ->
  g_unif G (g_next G a b) b e = (u, e') -> B2R (g_next G a b) <= B2R u < B2R b ->
  runif (N:=B64_Num F) G a b e = (u, e') /\ B2R a < B2R u < B2R b.
Proof. exact runif_strict. Qed.
Print Assumptions C48_strict_partial.
Definition low1 : Rng b64 unit :=
  {| g_unif := fun a _ e => (a, e); g_norm := fun e => (bofZ 0, e); g_next := fun _ _ => next1; g_mk := fun _ => tt |}.
Example C48_strict_ex (F : TF) : runif (N:=B64_Num F) low1 (bofZ 1) (bofZ 2) tt = (next1, tt) /\ B2R (bofZ 1) < B2R next1 < B2R (bofZ 2).
Proof.
  destruct (B64R.bofZ_R 1 ltac:(cbn; lia)) as [E1 F1]. destruct (B64R.bofZ_R 2 ltac:(cbn; lia)) as [E2 F2].
  assert (L : B2R next1 < B2R (bofZ 2)) by (apply B64R.bltb_R; [apply next1_R|exact F2|vm_compute; reflexivity]).
  apply C48_strict_partial; auto; [rewrite E1, E2; lra|split; [vm_compute; reflexivity|apply next1_R]|cbn [g_next low1]; lra].
Qed.

Theorem C48_adjacent_refuted : exists a b : b64, fin a /\ fin b /\ B2R a < B2R b /\
  (forall (F : TF) (E : Type) (G : Rng b64 E) (e : E), ~ B2R a < B2R (fst (runif (N:=B64_Num F) G a b e)) < B2R b).
Proof. exact runif_adjacent_refuted. Qed.
Print Assumptions C48_adjacent_refuted.

Theorem C48_overflow_refuted : forall F : TF, exists a b : b64, fin a /\ fin b /\ Bltb a b = true /\
  is_finite (fst (runif (N:=B64_Num F) mt_rng a b (mt_seed 1))) = false.
Proof. exact runif_ovf_refuted. Qed.
Print Assumptions C48_overflow_refuted.

Theorem C48_libstdcxx_refuted : forall F : TF, exists (a b : b64) (e : mt), length e = 312%nat /\ fin a /\ fin b /\
  B2R a + 1 <= B2R b /\ fst (runif (N:=B64_Num F) mt_rng a b e) = b.
Proof. exact runif_libstdcxx_refuted. Qed.
Print Assumptions C48_libstdcxx_refuted.
