(** What the samplers assume in binary64.  Of the standard library's distributions: the uniform draws on
    [nextafter(0,1), 1) lie strictly between 0 and 1 ([rand.dist.uni.real] promises the half-open interval), and
    the normal draws are finite.  Of the mathematical functions: the logarithm of a negative number is not a
    number or minus infinity, and powers of numbers between 0 and 1 are at most one and never a negative zero. *)
From Coq Require Import ZArith QArith.
From Flocq Require Import IEEE754.BinarySingleNaN.
From Verif Require Import B64 Rand SpecB64 SpecB64D.
Local Open Scope b64_scope.

Definition rng_b64 {E : Type} (G : Rng b64 E) : Prop :=
  (forall e, let u := fst (g_unif G (g_next G (bofZ 0) (bofZ 1)) (bofZ 1) e) in bofZ 0 ≺ u /\ u ≺ bofZ 1) /\
  (forall e, b64_fin (fst (g_norm G e))).
Definition log_cut (F : TF) : Prop :=
  log_std F /\ forall x, x ≺ bofZ 0 -> t_log F x = B754_nan \/ t_log F x = minus_inf.
Definition pow_unit (F : TF) : Prop :=
  pow_ok F /\ forall c, b64_pos c -> t_pow F (bofZ 1) c = bofZ 1 /\
    forall x, bofZ 0 ≺ x -> x ≺ bofZ 1 -> t_pow F x c <> B754_zero true.
(** a number, not a NaN *)
Definition number (x : b64) : Prop := x <> B754_nan.
(** every value a sampler returns satisfies P *)
Definition returns {E : Type} (P : b64 -> Prop) (r : option (b64 * E)) : Prop := forall v e, r = Some (v, e) -> P v.

(** a generator that reads its variates from two tapes *)
Definition tape (u z : nat -> b64) : Rng b64 nat :=
  {| g_unif := fun _ _ e => (u e, S e); g_norm := fun e => (z e, S e); g_next := fun a _ => a; g_mk := Z.to_nat |}.
(** a few values of the mathematical functions, all of them correct *)
Definition few_values (F : TF) : Prop :=
  t_log F (bofZ 1) = bofZ 0 /\ t_log F (blit (1#2)) ≤ blit (-1#2) /\ bofZ 2 ≤ t_log F (bofZ 8) /\ t_log F (bofZ 8) ≤ bofZ 3 /\
  t_powZ F (bofZ 1) 3 = bofZ 1 /\ t_powZ F (bofZ 2) 3 = bofZ 8 /\ t_pow F (blit (1#2)) (bofZ 2048) = bofZ 0.
(** a state of std::mt19937_64: 312 words of 64 bits *)
Definition mt_state (s : list Z) : Prop := length s = 312%nat /\ List.Forall (fun w => 0 <= w < 2 ^ 64)%Z s.
