(** Draws of binomial and multinomial counts from the engine's uniforms: vocabulary of C52 and C53. *)
From Coq Require Import Reals Lra List Bool.
From Verif Require Import ER Rand SpecRand SpecLaw.
Import ListNotations.
Local Open Scope R_scope.

(** the tosses read from the engine: u <= p is a success *)
Inductive tosses {E} (G : Rng ER E) (p : R) : E -> list bool -> E -> Prop :=
| toss_nil e : tosses G p e nil e
| toss_cons e u e1 bs e2 : unit_draw G e u e1 -> tosses G p e1 bs e2 ->
    tosses G p e ((if Rle_dec u p then true else false) :: bs) e2.

(** [binomial_draw G n q e k e']: n tosses with probability q read from e, k of them successes *)
Definition binomial_draw {E} (G : Rng ER E) (n : nat) (q : R) (e : E) (k : nat) (e' : E) : Prop :=
  exists bs, tosses G q e bs e' /\ length bs = n /\ wins bs = k.
Inductive count_draws {E} (G : Rng ER E) : nat -> R -> list R -> E -> list nat -> E -> Prop :=
| cd_nil n c e : count_draws G n c nil e nil e
| cd_cons n c p ps e k e1 ks e2 : binomial_draw G n (p / (1 - c)) e k e1 -> count_draws G (n - k) (c + p) ps e1 ks e2 ->
    count_draws G n c (p :: ps) e (k :: ks) e2.

