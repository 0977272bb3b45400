(** C40: rgamma returns on every stream with an accepted proposal, at recursion depth at most two (three calls only for shape = 0); false for infinite shape. *)
From Coq Require Import ZArith QArith Reals Lra Lia List.
From Verif Require Import Num Sanity ER ERTac B64 Rand MT SpecRand RandER RandGamma RandMore RandWit Session Witness WitnessSF RandB64b.
Import ListNotations.
Local Open Scope R_scope.


(** [accepts G d e x e']: reading Marsaglia-Tsang proposals from state [e] on, the first accepted
    one has value [x].  [fuel] bounds the rounds of the loop; more fuel never changes an answer. *)

Theorem C40_rgamma_fuel : forall (T : Type) (N : Num T) (E : Type) (G : Rng T E) (f1 f2 : nat) (k th : T) (e : E) (r : T * E),
  (f1 <= f2)%nat -> rgamma G f1 k th e = Some r -> rgamma G f2 k th e = Some r.
Proof. exact @rgamma_mono. Qed.
Print Assumptions C40_rgamma_fuel.

Theorem C40_rgamma_big : forall (S : SF) (E : Type) (G : Rng ER E), rng_ok G -> forall (k th : R) (e : E) (v : ER) (e' : E), 1 < k -> sf_eps S <= th ->
  (exists fuel : nat, rgamma (N:=ER_Num S) G fuel (Fin k) (Fin th) e = Some (v, e')) <->
  (exists x : R, v = Fin ((k - 1 / 3) * x * th) /\ accepts G (k - 1 / 3) e x e').
Proof. exact rgamma_big_iff. Qed.
Print Assumptions C40_rgamma_big.
Example C40_rgamma_big_ex : exists fuel, rgamma (N:=ER_Num SF0) counting fuel (Fin (4 / 3)) (Fin 3) 0%nat = Some (Fin ((4 / 3 - 1 / 3) * 1 * 3), 3%nat).
Proof. apply C40_rgamma_big; [exact counting_ok|lra|ex_side|]. exists 1. split; [reflexivity|]. replace (4 / 3 - 1 / 3) with 1 by lra. exact counting_accepts. Qed.

Theorem C40_rgamma_small : forall (S : SF) (E : Type) (G : Rng ER E), rng_ok G -> forall (k th : R) (e : E) (v : ER) (e' : E) (u : R) (e1 : E), 0 < k <= 1 -> sf_eps S <= th ->
  unit_draw G e u e1 ->
  (exists fuel : nat, rgamma (N:=ER_Num S) G fuel (Fin k) (Fin th) e = Some (v, e')) <->
  (exists x : R, v = Fin ((1 + k - 1 / 3) * x * th * Rpower u (1 / k)) /\ accepts G (1 + k - 1 / 3) e1 x e').
Proof. exact rgamma_small_iff. Qed.
Print Assumptions C40_rgamma_small.
Example C40_rgamma_small_ex : exists fuel v, rgamma (N:=ER_Num SF0) mid fuel (Fin (1 / 2)) (Fin 3) tt = Some (v, tt).
Proof.
  destruct (ok_next mid mid_ok) as (c & Hc & C). destruct (ok_unif mid mid_ok c 1 tt) as (u & [] & Hu & _); [lra|].
  assert (D : unit_draw mid tt u tt) by (unfold unit_draw; now rewrite Hc).
  destruct (proj2 (C40_rgamma_small SF0 unit mid mid_ok (1 / 2) 3 tt (Fin ((1 + 1 / 2 - 1 / 3) * 1 * 3 * Rpower u (1 / (1 / 2)))) tt u tt ltac:(lra) ltac:(ex_side) D)) as [f Hf].
  - exists 1. split; [reflexivity|apply mid_accepts].
  - eauto.
Qed.

Theorem C40_rgamma_zero : forall (S : SF) (E : Type) (G : Rng ER E), rng_ok G -> forall (th : R) (e : E) (u : R) (e1 : E) (u1 : R) (e2 : E), sf_eps S <= th ->
  unit_draw G e u e1 -> unit_draw G e1 u1 e2 ->
  (exists (fuel : nat) (r : ER * E), rgamma (N:=ER_Num S) G fuel (Fin 0) (Fin th) e = Some r) <->
  (exists (x : R) (e' : E), accepts G (5 / 3) e2 x e').
Proof. exact rgamma_zero_returns. Qed.
Print Assumptions C40_rgamma_zero.

(** Recursion: one call for shape > 1, two for shape in (0,1], three for shape = 0; further depth is never used. *)

Theorem C40_depth_big : forall (S : SF) (E : Type) (G : Rng ER E) (D f : nat) (k th : R) (e : E), 1 < k -> sf_eps S <= th ->
  rgamma_rec (N:=ER_Num S) G (Datatypes.S D) f (Fin k) (Fin th) e = rgamma_rec (N:=ER_Num S) G 1 f (Fin k) (Fin th) e.
Proof. exact depth_big. Qed.
Print Assumptions C40_depth_big.

Theorem C40_depth_small : forall (S : SF) (E : Type) (G : Rng ER E), rng_ok G -> forall (D f : nat) (k th : R) (e : E), 0 < k <= 1 -> sf_eps S <= th ->
  rgamma_rec (N:=ER_Num S) G (2 + D) f (Fin k) (Fin th) e = rgamma_rec (N:=ER_Num S) G 2 f (Fin k) (Fin th) e.
Proof. exact depth_small. Qed.
Print Assumptions C40_depth_small.
Example C40_depth_small_ex f e : rgamma_rec (N:=ER_Num SF0) counting 50 f (Fin (1 / 2)) (Fin 3) e = rgamma_rec (N:=ER_Num SF0) counting 2 f (Fin (1 / 2)) (Fin 3) e.
Proof. apply (C40_depth_small SF0 nat counting counting_ok 48); [lra|ex_side]. Qed.

Theorem C40_depth : forall (S : SF) (E : Type) (G : Rng ER E), rng_ok G -> forall (D f : nat) (k th : R) (e : E), 0 <= k -> sf_eps S <= th ->
  rgamma_rec (N:=ER_Num S) G (3 + D) f (Fin k) (Fin th) e = rgamma_rec (N:=ER_Num S) G 3 f (Fin k) (Fin th) e.
Proof. exact rgamma_depth. Qed.
Print Assumptions C40_depth.

Theorem C40_depth_double : forall (F : TF) (E : Type) (G : Rng b64 E) (D f : nat) (k th : b64) (e : E),
  rgamma_rec (N:=B64_Num F) G (3 + D) f k th e = rgamma_rec (N:=B64_Num F) G 3 f k th e.
Proof. exact rgamma_depth_b64. Qed.
Print Assumptions C40_depth_double.

Theorem C40_streams : forall (S : SF) (k th : R), 0 <= k -> sf_eps S <= th ->
  exists (E : Type) (G : Rng ER E) (e : E), rng_ok G /\ (exists (fuel : nat) (r : ER * E), rgamma (N:=ER_Num S) G fuel (Fin k) (Fin th) e = Some r).
Proof. exact rgamma_streams. Qed.
Print Assumptions C40_streams.
Example C40_streams_ex : exists (E : Type) (G : Rng ER E) (e : E), rng_ok G /\ (exists fuel r, rgamma (N:=ER_Num SF0) G fuel (Fin (1 / 2)) (Fin 3) e = Some r).
Proof. apply C40_streams; [lra|ex_side]. Qed.

(** An infinite shape passes the sanity check and the loop never ends, on any stream. *)

Theorem C40_rgamma_inf_refuted : forall S : SF, 0 < sf_eps S ->
  exists (E : Type) (G : Rng ER E) (e : E) (shape scale : ER), rng_ok G /\ gamma_sanity2 (N:=ER_Num S) shape scale = true /\
    (exists (v : R) (e' : E), accepts G 1 e v e') /\ (forall fuel : nat, rgamma (N:=ER_Num S) G fuel shape scale e = None).
Proof. exact rgamma_inf_refuted. Qed.
Print Assumptions C40_rgamma_inf_refuted.
