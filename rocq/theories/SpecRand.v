(** What the standard promises about the engine, and the vocabulary of the statements on the
    samplers, over the extended reals. *)
From Coq Require Import Reals Lra ZArith.
From Verif Require Import ER Rand.
Local Open Scope R_scope.

(** nextafter(0,1) lies strictly between 0 and 1; uniform_real_distribution(a,b) with a < b returns
    a value in [a,b); normal_distribution returns a number. *)
Record rng_ok {E} (G : Rng ER E) : Prop := {
  ok_next : exists c, g_next G (Fin 0) (Fin 1) = Fin c /\ 0 < c < 1;
  ok_unif : forall a b e, a < b -> exists u e', g_unif G (Fin a) (Fin b) e = (Fin u, e') /\ a <= u < b;
  ok_norm : forall e, exists z e', g_norm G e = (Fin z, e')
}.

(** [unit_draw G e u e']: the uniform variate the samplers take from the state [e] is [u] *)
Definition unit_draw {E} (G : Rng ER E) (e : E) (u : R) (e' : E) : Prop :=
  g_unif G (g_next G (Fin 0) (Fin 1)) (Fin 1) e = (Fin u, e').
(** [normal_draw G e z e']: the standard normal variate *)
Definition normal_draw {E} (G : Rng ER E) (e : E) (z : R) (e' : E) : Prop :=
  g_norm G e = (Fin z, e').

(** A sampler that consumes one uniform [u] and whose draw is at most [x] exactly when [u <= F x]:
    the set of [u] with draw <= x is the interval (0, F x], of length F x. *)
Definition samples_cdf {E} (G : Rng ER E) (r : E -> ER * E) (F : R -> R) : Prop :=
  forall e, exists u e' v, unit_draw G e u e' /\ 0 < u < 1 /\ r e = (Fin v, e') /\
    forall x, v <= x <-> u <= F x.
(** the documented CDFs are formulas for x > 0; the CDF is 0 elsewhere *)
Definition from0 (F : R -> R) (x : R) : R := if Rle_dec x 0 then 0 else F x.

(** Every draw satisfies [P]. *)
Definition draws_in {E} (r : E -> ER * E) (P : R -> Prop) : Prop :=
  forall e, exists v e', r e = (Fin v, e') /\ P v.
(** Every draw that is returned satisfies [P]. *)
Definition draws_in_if {E} (r : E -> option (ER * E)) (P : R -> Prop) : Prop :=
  forall e v e', r e = Some (v, e') -> exists x, v = Fin x /\ P x.

(** Real part of the acceptance test of Marsaglia and Tsang's method (rand/rgamma.ipp 46-62):
    d = shape - 1/3, c = 1/(3 sqrt d), v = (1 + c z)^3. *)
Definition mt_c (d : R) : R := 1 / 3 / sqrt d.
Definition mt_v (d z : R) : R := (1 + mt_c d * z) ^ 3.
Definition mt_accept (d z u : R) : Prop :=
  0 < 1 + mt_c d * z /\ ln u < 1 / 2 * z * z + d * (1 - mt_v d z + ln (mt_v d z)).

(** [accepts G d e v e']: reading proposals from the state [e] onwards, the first accepted one has
    value [v] and leaves the engine in [e'].  A proposal with 1 + c z <= 0 takes no uniform. *)
Inductive accepts {E} (G : Rng ER E) (d : R) : E -> R -> E -> Prop :=
| acc_now e z e1 u e2 : normal_draw G e z e1 -> unit_draw G e1 u e2 -> mt_accept d z u ->
    accepts G d e (mt_v d z) e2
| acc_skip e z e1 v e' : normal_draw G e z e1 -> 1 + mt_c d * z <= 0 -> accepts G d e1 v e' ->
    accepts G d e v e'
| acc_reject e z e1 u e2 v e' : normal_draw G e z e1 -> 0 < 1 + mt_c d * z -> unit_draw G e1 u e2 ->
    ~ mt_accept d z u -> accepts G d e2 v e' -> accepts G d e v e'.
