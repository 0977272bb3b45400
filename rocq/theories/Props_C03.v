(** C03: invalid parameters give NaN from every sampler (false for rinvgauss). *)
From Coq Require Import ZArith QArith Bool.
From Coq Require Import Reals Lra.
From Flocq Require Import IEEE754.BinarySingleNaN.
From Verif Require Import ER ERTac B64.
From Verif Require Import Num Sanity Quant Rand Laws NanSpec NanPolicy RandNan MT.


(** The engine and the standard distributions on it are arbitrary ([Rng]); the engine state is
    not touched.  [T] is any arithmetic satisfying [NumLaws]: the exact one and binary64 do. *)

Theorem C03_runif : forall (T E : Type) (N : Num T) (L : NumLaws T) (G : Rng T E) (a b : T) (e : E),
  NaNv a \/ NaNv b \/ leb b a = true ->
  is_nan (fst (runif G a b e)) = true /\ snd (runif G a b e) = e.
Proof. exact runif_nan. Qed.
Print Assumptions C03_runif.

Theorem C03_rnorm : forall (T E : Type) (N : Num T) (L : NumLaws T) (G : Rng T E) (mu sigma : T) (e : E),
  NaNv mu \/ NaNv sigma \/ negative sigma ->
  is_nan (fst (rnorm G mu sigma e)) = true /\ snd (rnorm G mu sigma e) = e.
Proof. exact rnorm_nan. Qed.
Print Assumptions C03_rnorm.

Theorem C03_rexp : forall (T E : Type) (N : Num T) (L : NumLaws T) (G : Rng T E) (rate : T) (e : E),
  NaNv rate \/ negative rate ->
  is_nan (fst (rexp G rate e)) = true /\ snd (rexp G rate e) = e.
Proof. exact rexp_nan. Qed.
Print Assumptions C03_rexp.

Theorem C03_rcauchy : forall (T E : Type) (N : Num T) (L : NumLaws T) (G : Rng T E) (mu sigma : T) (e : E),
  NaNv mu \/ NaNv sigma \/ negative sigma ->
  is_nan (fst (rcauchy G mu sigma e)) = true /\ snd (rcauchy G mu sigma e) = e.
Proof. exact rcauchy_nan. Qed.
Print Assumptions C03_rcauchy.

Theorem C03_rlaplace : forall (T E : Type) (N : Num T) (L : NumLaws T) (G : Rng T E) (mu sigma : T) (e : E),
  NaNv mu \/ NaNv sigma \/ negative sigma ->
  is_nan (fst (rlaplace G mu sigma e)) = true /\ snd (rlaplace G mu sigma e) = e.
Proof. exact rlaplace_nan. Qed.
Print Assumptions C03_rlaplace.

Theorem C03_rlogis : forall (T E : Type) (N : Num T) (L : NumLaws T) (G : Rng T E) (mu sigma : T) (e : E),
  NaNv mu \/ NaNv sigma \/ negative sigma ->
  is_nan (fst (rlogis G mu sigma e)) = true /\ snd (rlogis G mu sigma e) = e.
Proof. exact rlogis_nan. Qed.
Print Assumptions C03_rlogis.

Theorem C03_rweibull : forall (T E : Type) (N : Num T) (L : NumLaws T) (G : Rng T E) (shape scale : T) (e : E),
  NaNv shape \/ NaNv scale \/ negative shape \/ negative scale ->
  is_nan (fst (rweibull G shape scale e)) = true /\ snd (rweibull G shape scale e) = e.
Proof. exact rweibull_nan. Qed.
Print Assumptions C03_rweibull.

Theorem C03_rlnorm : forall (T E : Type) (N : Num T) (L : NumLaws T) (G : Rng T E) (mu sigma : T) (e : E),
  NaNv mu \/ NaNv sigma \/ negative sigma ->
  is_nan (fst (rlnorm G mu sigma e)) = true /\ snd (rlnorm G mu sigma e) = e.
Proof. exact rlnorm_nan. Qed.
Print Assumptions C03_rlnorm.

Theorem C03_rbern : forall (T E : Type) (N : Num T) (L : NumLaws T) (G : Rng T E) (prob : T) (e : E),
  not_prob prob ->
  is_nan (fst (rbern G prob e)) = true /\ snd (rbern G prob e) = e.
Proof. exact rbern_nan. Qed.
Print Assumptions C03_rbern.

Theorem C03_rradem : forall (T E : Type) (N : Num T) (L : NumLaws T) (G : Rng T E) (prob : T) (e : E),
  not_prob prob ->
  is_nan (fst (rradem G prob e)) = true /\ snd (rradem G prob e) = e.
Proof. exact rradem_nan. Qed.
Print Assumptions C03_rradem.

Theorem C03_rbinom : forall (T E : Type) (N : Num T) (L : NumLaws T) (G : Rng T E) (n : Z) (prob : T) (e : E),
  (n < 0)%Z \/ not_prob prob ->
  is_nan (fst (rbinom G n prob e)) = true /\ snd (rbinom G n prob e) = e.
Proof. exact rbinom_nan. Qed.
Print Assumptions C03_rbinom.

Theorem C03_rgamma : forall (T E : Type) (N : Num T) (L : NumLaws T) (G : Rng T E) (fuel : nat) (shape scale : T) (e : E),
  NaNv shape \/ NaNv scale \/ negative shape \/ negative scale ->
  exists v, rgamma G (S fuel) shape scale e = Some (v, e) /\ is_nan v = true.
Proof. exact rgamma_nan. Qed.
Print Assumptions C03_rgamma.

Theorem C03_rchisq : forall (T E : Type) (N : Num T) (L : NumLaws T) (G : Rng T E) (fuel : nat) (dof : T) (e : E),
  NaNv dof \/ negative dof ->
  exists v, rchisq G (S fuel) dof e = Some (v, e) /\ is_nan v = true.
Proof. exact rchisq_nan. Qed.
Print Assumptions C03_rchisq.

Theorem C03_rbeta : forall (T E : Type) (N : Num T) (L : NumLaws T) (G : Rng T E) (fuel : nat) (a b : T) (e : E),
  NaNv a \/ NaNv b \/ negative a \/ negative b ->
  exists v, rbeta G (S fuel) a b e = Some (v, e) /\ is_nan v = true.
Proof. exact rbeta_nan. Qed.
Print Assumptions C03_rbeta.

Theorem C03_rf : forall (T E : Type) (N : Num T) (L : NumLaws T) (G : Rng T E) (fuel : nat) (df1 df2 : T) (e : E),
  NaNv df1 \/ NaNv df2 \/ negative df1 \/ negative df2 ->
  exists v, rf G (S fuel) df1 df2 e = Some (v, e) /\ is_nan v = true.
Proof. exact rf_nan. Qed.
Print Assumptions C03_rf.

Theorem C03_rt : forall (T E : Type) (N : Num T) (L : NumLaws T) (G : Rng T E) (fuel : nat) (dof : T) (e : E),
  NaNv dof \/ negative dof ->
  exists v, rt G (S fuel) dof e = Some (v, e) /\ is_nan v = true.
Proof. exact rt_nan. Qed.
Print Assumptions C03_rt.

Theorem C03_rinvgamma : forall (T E : Type) (N : Num T) (L : NumLaws T) (G : Rng T E) (fuel : nat) (shape rate : T) (e : E),
  NaNv shape \/ NaNv rate \/ negative shape \/ negative rate ->
  exists v, rinvgamma G (S fuel) shape rate e = Some (v, e) /\ is_nan v = true.
Proof. exact rinvgamma_nan. Qed.
Print Assumptions C03_rinvgamma.

Theorem C03_rpois : forall (T E : Type) (N : Num T) (L : NumLaws T) (G : Rng T E) (trunc : T -> option Z) (fuel : nat) (rate : T) (e : E),
  NaNv rate \/ negative rate ->
  exists v, rpois G trunc fuel rate e = Some (v, e) /\ is_nan v = true.
Proof. exact rpois_nan. Qed.
Print Assumptions C03_rpois.

Theorem C03_rinvgauss_nan_par : forall (S : SF) (E : Type) (G : Rng ER E) (mu lambda : ER) (e : E),
  mu = NaN \/ lambda = NaN -> fst (rinvgauss (N:=ER_Num S) G mu lambda e) = NaN.
Proof. exact rinvgauss_nan_par. Qed.
Print Assumptions C03_rinvgauss_nan_par.

Theorem C03_rinvgauss_refuted : forall (S : SF), exists (E : Type) (G : Rng ER E) (mu lambda : ER) (e : E),
  negative (N:=ER_Num S) mu /\ is_nan (Num:=ER_Num S) (fst (rinvgauss (N:=ER_Num S) G mu lambda e)) = false.
Proof. exact rinvgauss_refuted. Qed.
Print Assumptions C03_rinvgauss_refuted.

(** Hypotheses met in binary64 on the mt19937_64 engine. *)
Example C03_rnorm_ex (F : TF) : bisnan (fst (rnorm (N:=B64_Num F) mt_rng (bofZ 0) (bofZ (-1)) (mt_seed 7))) = true.
Proof. apply (C03_rnorm b64 mt (B64_Num F) (B64_Laws F) mt_rng). right. right. vm_compute. reflexivity. Qed.
Example C03_rgamma_ex (F : TF) : exists v, rgamma (N:=B64_Num F) mt_rng 5 (bofZ 2) (bofZ (-3)) (mt_seed 7) = Some (v, mt_seed 7) /\ bisnan v = true.
Proof. apply (C03_rgamma b64 mt (B64_Num F) (B64_Laws F) mt_rng 4). right. right. right. vm_compute. reflexivity. Qed.
Example C03_rbinom_ex (F : TF) : bisnan (fst (rbinom (N:=B64_Num F) mt_rng (-2) (blit (1#2)) (mt_seed 7))) = true.
Proof. apply (C03_rbinom b64 mt (B64_Num F) (B64_Laws F) mt_rng). left. reflexivity. Qed.
