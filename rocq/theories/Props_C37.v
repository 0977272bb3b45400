(** C37: the inverse-transform samplers have the documented distribution. *)
From Coq Require Import ZArith QArith Reals Lra Lia List.
From Verif Require Import Num Sanity ER ERTac B64 Rand MT SpecRand RandER RandGamma RandMore RandWit Session Witness WitnessSF Spec Discrete.
Import ListNotations.
Local Open Scope R_scope.


(** [samples_cdf G r F]: each call of [r] takes one uniform u in (0,1) from the engine, and the draw
    is <= x exactly when u <= F x.  [rng_ok G] is what the standard promises about the engine. *)

Theorem C37_rexp : forall (S : SF) (E : Type) (G : Rng ER E), rng_ok G -> forall rate : R, 0 < rate ->
  samples_cdf G (rexp (N:=ER_Num S) G (Fin rate)) (from0 (exp_cdf rate)).
Proof. exact rexp_cdf. Qed.
Print Assumptions C37_rexp.
Example C37_rexp_ex : samples_cdf counting (rexp (N:=ER_Num SF0) counting (Fin 2)) (from0 (exp_cdf 2)).
Proof. apply C37_rexp; [exact counting_ok|lra]. Qed.

Theorem C37_rcauchy : forall (S : SF) (E : Type) (G : Rng ER E), rng_ok G -> forall mu s : R, 0 < s ->
  samples_cdf G (rcauchy (N:=ER_Num S) G (Fin mu) (Fin s)) (cauchy_cdf mu s).
Proof. exact rcauchy_cdf. Qed.
Print Assumptions C37_rcauchy.
Example C37_rcauchy_ex : samples_cdf counting (rcauchy (N:=ER_Num SF0) counting (Fin 1) (Fin 2)) (cauchy_cdf 1 2).
Proof. apply C37_rcauchy; [exact counting_ok|lra]. Qed.

Theorem C37_rlaplace : forall (S : SF) (E : Type) (G : Rng ER E), rng_ok G -> forall mu s : R, 0 < s ->
  samples_cdf G (rlaplace (N:=ER_Num S) G (Fin mu) (Fin s)) (laplace_cdf mu s).
Proof. exact rlaplace_cdf. Qed.
Print Assumptions C37_rlaplace.
Example C37_rlaplace_ex : samples_cdf counting (rlaplace (N:=ER_Num SF0) counting (Fin 1) (Fin 2)) (laplace_cdf 1 2).
Proof. apply C37_rlaplace; [exact counting_ok|lra]. Qed.

Theorem C37_rlogis : forall (S : SF) (E : Type) (G : Rng ER E), rng_ok G -> forall mu s : R, 0 < s ->
  samples_cdf G (rlogis (N:=ER_Num S) G (Fin mu) (Fin s)) (logis_cdf mu s).
Proof. exact rlogis_cdf. Qed.
Print Assumptions C37_rlogis.
Example C37_rlogis_ex : samples_cdf counting (rlogis (N:=ER_Num SF0) counting (Fin 1) (Fin 2)) (logis_cdf 1 2).
Proof. apply C37_rlogis; [exact counting_ok|lra]. Qed.

Theorem C37_rweibull : forall (S : SF) (E : Type) (G : Rng ER E), rng_ok G -> forall k th : R, 0 < sf_eps S -> sf_eps S <= k -> sf_eps S <= th ->
  samples_cdf G (rweibull (N:=ER_Num S) G (Fin k) (Fin th)) (from0 (weibull_cdf k th)).
Proof. exact rweibull_cdf. Qed.
Print Assumptions C37_rweibull.
Example C37_rweibull_ex : samples_cdf counting (rweibull (N:=ER_Num SF0) counting (Fin 2) (Fin 3)) (from0 (weibull_cdf 2 3)).
Proof. apply C37_rweibull; [exact counting_ok|ex_side..]. Qed.

Theorem C37_rbern : forall (S : SF) (E : Type) (G : Rng ER E), rng_ok G -> forall pr : R, 0 <= pr <= 1 -> forall e : E,
  exists (u : R) (e' : E) (v : R), unit_draw G e u e' /\ 0 < u < 1 /\ rbern (N:=ER_Num S) G (Fin pr) e = (Fin v, e') /\
    (v = 1 <-> u <= pr) /\ (v = 0 <-> pr < u).
Proof. exact rbern_dist. Qed.
Print Assumptions C37_rbern.
Example C37_rbern_ex : exists (u : R) (e' : nat) (v : R), unit_draw counting 4%nat u e' /\ 0 < u < 1 /\
  rbern (N:=ER_Num SF0) counting (Fin (1 / 4)) 4%nat = (Fin v, e') /\ (v = 1 <-> u <= 1 / 4) /\ (v = 0 <-> 1 / 4 < u).
Proof. apply C37_rbern; [exact counting_ok|lra]. Qed.

Theorem C37_rradem : forall (S : SF) (E : Type) (G : Rng ER E), rng_ok G -> forall pr : R, 0 <= pr <= 1 -> forall e : E,
  exists (u : R) (e' : E) (v : R), unit_draw G e u e' /\ 0 < u < 1 /\ rradem (N:=ER_Num S) G (Fin pr) e = (Fin v, e') /\
    (v = 1 <-> u <= pr) /\ (v = -1 <-> pr < u).
Proof. exact rradem_dist. Qed.
Print Assumptions C37_rradem.
Example C37_rradem_ex : exists (u : R) (e' : nat) (v : R), unit_draw counting 4%nat u e' /\ 0 < u < 1 /\
  rradem (N:=ER_Num SF0) counting (Fin (1 / 4)) 4%nat = (Fin v, e') /\ (v = 1 <-> u <= 1 / 4) /\ (v = -1 <-> 1 / 4 < u).
Proof. apply C37_rradem; [exact counting_ok|lra]. Qed.

(** Beyond the list: the samplers that transform the normal variate, and rpois for small rates. *)

Theorem C37_rnorm : forall (S : SF) (E : Type) (G : Rng ER E), rng_ok G -> forall mu s : R, 0 < s -> forall e : E,
  exists (z : R) (e' : E) (v : R), normal_draw G e z e' /\ rnorm (N:=ER_Num S) G (Fin mu) (Fin s) e = (Fin v, e') /\
    (forall x : R, v <= x <-> z <= (x - mu) / s).
Proof. exact rnorm_dist. Qed.
Print Assumptions C37_rnorm.
Example C37_rnorm_ex : exists (z : R) (e' : nat) (v : R), normal_draw counting 4%nat z e' /\ rnorm (N:=ER_Num SF0) counting (Fin 1) (Fin 2) 4%nat = (Fin v, e') /\
    (forall x : R, v <= x <-> z <= (x - 1) / 2).
Proof. apply C37_rnorm; [exact counting_ok|lra]. Qed.

Theorem C37_rlnorm : forall (S : SF) (E : Type) (G : Rng ER E), rng_ok G -> forall mu s : R, 0 < s -> forall e : E,
  exists (z : R) (e' : E) (v : R), normal_draw G e z e' /\ rlnorm (N:=ER_Num S) G (Fin mu) (Fin s) e = (Fin v, e') /\
    (forall x : R, 0 < x -> v <= x <-> z <= (ln x - mu) / s).
Proof. exact rlnorm_dist. Qed.
Print Assumptions C37_rlnorm.
Example C37_rlnorm_ex : exists (z : R) (e' : nat) (v : R), normal_draw counting 4%nat z e' /\ rlnorm (N:=ER_Num SF0) counting (Fin 1) (Fin 2) 4%nat = (Fin v, e') /\
    (forall x : R, 0 < x -> v <= x <-> z <= (ln x - 1) / 2).
Proof. apply C37_rlnorm; [exact counting_ok|lra]. Qed.

Theorem C37_rpois : forall (S : SF) (E : Type) (G : Rng ER E), rng_ok G -> forall (tr : ER -> option Z) (rate : R), incgamma_int_ok S -> 0 < rate < 11 -> sf_eps S <= rate -> forall e : E,
  exists (u : R) (e' : E) (fuel : nat) (k : Z), unit_draw G e u e' /\ 0 < u < 1 /\
    rpois (N:=ER_Num S) G tr fuel (Fin rate) e = Some (Fin (IZR k), e') /\ (0 <= k)%Z /\
    (forall j : nat, (k <= Z.of_nat j)%Z <-> u < sum_f_R0 (pois_pmf rate) j).
Proof. exact rpois_dist. Qed.
Print Assumptions C37_rpois.
Example C37_rpois_ex : exists (u : R) (e' : nat) (fuel : nat) (k : Z), unit_draw counting 4%nat u e' /\ 0 < u < 1 /\
    rpois (N:=ER_Num SF_int) counting (fun _ => None) fuel (Fin 3) 4%nat = Some (Fin (IZR k), e') /\ (0 <= k)%Z /\
    (forall j : nat, (k <= Z.of_nat j)%Z <-> u < sum_f_R0 (pois_pmf 3) j).
Proof. apply C37_rpois; [exact counting_ok|intros n r Hr; cbn [sf_incgamma SF_int]; now rewrite Int_part_nat|lra|cbn [sf_eps SF_int]; lra]. Qed.
