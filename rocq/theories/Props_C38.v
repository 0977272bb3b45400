(** C38: draws lie in the support (false for rinvgamma with rate > 1/epsilon, which gives NaN). *)
From Coq Require Import ZArith QArith Reals Lra Lia List.
From Verif Require Import Num Sanity ER ERTac B64 Rand MT SpecRand RandER RandGamma RandMore RandWit Session Witness WitnessSF Spec.
Import ListNotations.
Local Open Scope R_scope.


Theorem C38_runif : forall (S : SF) (E : Type) (G : Rng ER E), rng_ok G -> forall a b : R, a < b ->
  (exists c : R, g_next G (Fin a) (Fin b) = Fin c /\ a < c < b) -> draws_in (runif (N:=ER_Num S) G (Fin a) (Fin b)) (fun v : R => a < v < b).
Proof. exact runif_in. Qed.
Print Assumptions C38_runif.
Example C38_runif_ex : draws_in (runif (N:=ER_Num SF0) counting (Fin 0) (Fin 1)) (fun v : R => 0 < v < 1).
Proof. apply C38_runif; [exact counting_ok|lra|exact (ok_next counting counting_ok)]. Qed.

Theorem C38_rnorm : forall (S : SF) (E : Type) (G : Rng ER E), rng_ok G -> forall mu s : R, 0 <= s ->
  draws_in (rnorm (N:=ER_Num S) G (Fin mu) (Fin s)) (fun v : R => True).
Proof. exact rnorm_in. Qed.
Print Assumptions C38_rnorm.
Example C38_rnorm_ex : draws_in (rnorm (N:=ER_Num SF0) counting (Fin 1) (Fin 2)) (fun _ : R => True).
Proof. apply C38_rnorm; [exact counting_ok|lra]. Qed.

Theorem C38_rlnorm : forall (S : SF) (E : Type) (G : Rng ER E), rng_ok G -> forall mu s : R, 0 <= s ->
  draws_in (rlnorm (N:=ER_Num S) G (Fin mu) (Fin s)) (fun v : R => 0 < v).
Proof. exact rlnorm_in. Qed.
Print Assumptions C38_rlnorm.
Example C38_rlnorm_ex : draws_in (rlnorm (N:=ER_Num SF0) counting (Fin 1) (Fin 2)) (fun v : R => 0 < v).
Proof. apply C38_rlnorm; [exact counting_ok|lra]. Qed.

Theorem C38_rexp : forall (S : SF) (E : Type) (G : Rng ER E), rng_ok G -> forall rate : R, 0 < rate ->
  draws_in (rexp (N:=ER_Num S) G (Fin rate)) (fun v : R => 0 < v).
Proof. exact rexp_in. Qed.
Print Assumptions C38_rexp.
Example C38_rexp_ex : draws_in (rexp (N:=ER_Num SF0) counting (Fin 2)) (fun v : R => 0 < v).
Proof. apply C38_rexp; [exact counting_ok|lra]. Qed.

Theorem C38_rweibull : forall (S : SF) (E : Type) (G : Rng ER E), rng_ok G -> forall k th : R, 0 < sf_eps S -> sf_eps S <= k -> sf_eps S <= th ->
  draws_in (rweibull (N:=ER_Num S) G (Fin k) (Fin th)) (fun v : R => 0 < v).
Proof. exact rweibull_in. Qed.
Print Assumptions C38_rweibull.
Example C38_rweibull_ex : draws_in (rweibull (N:=ER_Num SF0) counting (Fin 2) (Fin 3)) (fun v : R => 0 < v).
Proof. apply C38_rweibull; [exact counting_ok|ex_side..]. Qed.

Theorem C38_rcauchy : forall (S : SF) (E : Type) (G : Rng ER E), rng_ok G -> forall mu s : R, 0 < s ->
  draws_in (rcauchy (N:=ER_Num S) G (Fin mu) (Fin s)) (fun v : R => True).
Proof. exact rcauchy_in. Qed.
Print Assumptions C38_rcauchy.
Example C38_rcauchy_ex : draws_in (rcauchy (N:=ER_Num SF0) counting (Fin 1) (Fin 2)) (fun _ : R => True).
Proof. apply C38_rcauchy; [exact counting_ok|lra]. Qed.

Theorem C38_rlaplace : forall (S : SF) (E : Type) (G : Rng ER E), rng_ok G -> forall mu s : R, 0 < s ->
  draws_in (rlaplace (N:=ER_Num S) G (Fin mu) (Fin s)) (fun v : R => True).
Proof. exact rlaplace_in. Qed.
Print Assumptions C38_rlaplace.
Example C38_rlaplace_ex : draws_in (rlaplace (N:=ER_Num SF0) counting (Fin 1) (Fin 2)) (fun _ : R => True).
Proof. apply C38_rlaplace; [exact counting_ok|lra]. Qed.

Theorem C38_rlogis : forall (S : SF) (E : Type) (G : Rng ER E), rng_ok G -> forall mu s : R, 0 < s ->
  draws_in (rlogis (N:=ER_Num S) G (Fin mu) (Fin s)) (fun v : R => True).
Proof. exact rlogis_in. Qed.
Print Assumptions C38_rlogis.
Example C38_rlogis_ex : draws_in (rlogis (N:=ER_Num SF0) counting (Fin 1) (Fin 2)) (fun _ : R => True).
Proof. apply C38_rlogis; [exact counting_ok|lra]. Qed.

Theorem C38_rinvgauss : forall (S : SF) (E : Type) (G : Rng ER E), rng_ok G -> forall mu l : R, 0 < mu -> 0 < l ->
  draws_in (rinvgauss (N:=ER_Num S) G (Fin mu) (Fin l)) (fun v : R => 0 < v).
Proof. exact rinvgauss_in. Qed.
Print Assumptions C38_rinvgauss.
Example C38_rinvgauss_ex : draws_in (rinvgauss (N:=ER_Num SF0) counting (Fin 1) (Fin 2)) (fun v : R => 0 < v).
Proof. apply C38_rinvgauss; [exact counting_ok|lra..]. Qed.

Theorem C38_rbern : forall (S : SF) (E : Type) (G : Rng ER E), rng_ok G -> forall pr : R, 0 <= pr <= 1 ->
  draws_in (rbern (N:=ER_Num S) G (Fin pr)) (fun v : R => v = 0 \/ v = 1).
Proof. exact rbern_in. Qed.
Print Assumptions C38_rbern.
Example C38_rbern_ex : draws_in (rbern (N:=ER_Num SF0) counting (Fin (1 / 3))) (fun v : R => v = 0 \/ v = 1).
Proof. apply C38_rbern; [exact counting_ok|lra]. Qed.

Theorem C38_rradem : forall (S : SF) (E : Type) (G : Rng ER E), rng_ok G -> forall pr : R, 0 <= pr <= 1 ->
  draws_in (rradem (N:=ER_Num S) G (Fin pr)) (fun v : R => v = -1 \/ v = 1).
Proof. exact rradem_in. Qed.
Print Assumptions C38_rradem.
Example C38_rradem_ex : draws_in (rradem (N:=ER_Num SF0) counting (Fin (1 / 3))) (fun v : R => v = -1 \/ v = 1).
Proof. apply C38_rradem; [exact counting_ok|lra]. Qed.

Theorem C38_rbinom : forall (S : SF) (E : Type) (G : Rng ER E), rng_ok G -> forall (n : Z) (pr : R), (0 <= n)%Z -> 0 <= pr <= 1 ->
  draws_in (rbinom (N:=ER_Num S) G n (Fin pr)) (fun v : R => exists j : Z, v = IZR j /\ (0 <= j <= n)%Z).
Proof. exact rbinom_in. Qed.
Print Assumptions C38_rbinom.
Example C38_rbinom_ex : draws_in (rbinom (N:=ER_Num SF0) counting 10 (Fin (1 / 3))) (fun v : R => exists j : Z, v = IZR j /\ (0 <= j <= 10)%Z).
Proof. apply C38_rbinom; [exact counting_ok|lia|lra]. Qed.

(** [tr] is the conversion of the normal approximation to an integer; [draws_in_if] speaks about
    the draws that are returned (the loops may not finish within [fuel] rounds). *)

Theorem C38_rpois : forall (S : SF) (E : Type) (G : Rng ER E), rng_ok G -> forall (tr : ER -> option Z) (rate : R), 0 <= rate -> trunc_nonneg tr -> forall fuel : nat,
  draws_in_if (rpois (N:=ER_Num S) G tr fuel (Fin rate)) (fun v : R => exists j : Z, v = IZR j /\ (0 <= j)%Z).
Proof. exact rpois_in. Qed.
Print Assumptions C38_rpois.
Example C38_rpois_ex : draws_in_if (rpois (N:=ER_Num SF0) counting Seed.er_to_size 100 (Fin 3)) (fun v : R => exists j : Z, v = IZR j /\ (0 <= j)%Z).
Proof. apply C38_rpois; [exact counting_ok|lra|exact er_to_size_nonneg]. Qed.

Theorem C38_rgamma : forall (S : SF) (E : Type) (G : Rng ER E), rng_ok G -> forall k th : R, 0 < sf_eps S -> 0 < k -> sf_eps S <= th -> forall fuel : nat,
  draws_in_if (rgamma (N:=ER_Num S) G fuel (Fin k) (Fin th)) (fun v : R => 0 < v).
Proof. exact rgamma_in. Qed.
Print Assumptions C38_rgamma.
Example C38_rgamma_ex : draws_in_if (rgamma (N:=ER_Num SF0) counting 100 (Fin 2) (Fin 3)) (fun v : R => 0 < v).
Proof. apply C38_rgamma; [exact counting_ok|ex_side..]. Qed.

Theorem C38_rchisq : forall (S : SF) (E : Type) (G : Rng ER E), rng_ok G -> forall d : R, 0 < sf_eps S <= 2 -> 0 < d -> forall fuel : nat,
  draws_in_if (rchisq (N:=ER_Num S) G fuel (Fin d)) (fun v : R => 0 < v).
Proof. exact rchisq_in. Qed.
Print Assumptions C38_rchisq.
Example C38_rchisq_ex : draws_in_if (rchisq (N:=ER_Num SF0) counting 100 (Fin 2)) (fun v : R => 0 < v).
Proof. apply C38_rchisq; [exact counting_ok|ex_side..]. Qed.

Theorem C38_rbeta : forall (S : SF) (E : Type) (G : Rng ER E), rng_ok G -> forall a b : R, 0 < sf_eps S <= 1 -> 0 < a -> 0 < b -> forall fuel : nat,
  draws_in_if (rbeta (N:=ER_Num S) G fuel (Fin a) (Fin b)) (fun v : R => 0 < v < 1).
Proof. exact rbeta_in. Qed.
Print Assumptions C38_rbeta.
Example C38_rbeta_ex : draws_in_if (rbeta (N:=ER_Num SF0) counting 100 (Fin 2) (Fin 3)) (fun v : R => 0 < v < 1).
Proof. apply C38_rbeta; [exact counting_ok|ex_side..]. Qed.

Theorem C38_rf : forall (S : SF) (E : Type) (G : Rng ER E), rng_ok G -> forall a b : R, 0 < sf_eps S <= 2 -> sf_eps S <= a -> sf_eps S <= b -> forall fuel : nat,
  draws_in_if (rf (N:=ER_Num S) G fuel (Fin a) (Fin b)) (fun v : R => 0 < v).
Proof. exact rf_in. Qed.
Print Assumptions C38_rf.
Example C38_rf_ex : draws_in_if (rf (N:=ER_Num SF0) counting 100 (Fin 2) (Fin 3)) (fun v : R => 0 < v).
Proof. apply C38_rf; [exact counting_ok|ex_side..]. Qed.

Theorem C38_rt : forall (S : SF) (E : Type) (G : Rng ER E), rng_ok G -> forall d : R, 0 < sf_eps S <= 2 -> sf_eps S <= d -> forall fuel : nat,
  draws_in_if (rt (N:=ER_Num S) G fuel (Fin d)) (fun v : R => True).
Proof. exact rt_in. Qed.
Print Assumptions C38_rt.
Example C38_rt_ex : draws_in_if (rt (N:=ER_Num SF0) counting 100 (Fin 3)) (fun _ : R => True).
Proof. apply C38_rt; [exact counting_ok|ex_side..]. Qed.

(** Partial: rates above 1/epsilon are missing, and there the statement fails. *)

Theorem C38_rinvgamma_partial : forall (S : SF) (E : Type) (G : Rng ER E), rng_ok G -> forall k rate : R, 0 < sf_eps S -> 0 < k -> 0 < rate -> sf_eps S <= 1 / rate -> forall fuel : nat,
  draws_in_if (rinvgamma (N:=ER_Num S) G fuel (Fin k) (Fin rate)) (fun v : R => 0 < v).
Proof. exact rinvgamma_in. Qed.
Print Assumptions C38_rinvgamma_partial.
Example C38_rinvgamma_partial_ex : draws_in_if (rinvgamma (N:=ER_Num SF0) counting 100 (Fin 2) (Fin 1)) (fun v : R => 0 < v).
Proof. apply C38_rinvgamma_partial; [exact counting_ok|ex_side..]. Qed.

Theorem C38_rinvgamma_refuted : forall S : SF, 0 < sf_eps S -> exists (E : Type) (G : Rng ER E) (k rate : R),
  rng_ok G /\ 0 < k /\ 0 < rate /\ invgamma_sanity2 (N:=ER_Num S) (Fin k) (Fin rate) = true /\
  forall fuel e, rinvgamma (N:=ER_Num S) G (Datatypes.S fuel) (Fin k) (Fin rate) e = Some (NaN, e).
Proof. exact rinvgamma_refuted. Qed.
Print Assumptions C38_rinvgamma_refuted.
