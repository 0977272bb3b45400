(** C66: what the samplers return in double precision. *)
From Coq Require Import ZArith QArith.
From Verif Require Import Num Sanity Rand MT B64 SpecB64 SpecB64D B64CR B64CR2 B64CR3 B64Thm SpecRandB B64RandBad B64RandW B64RandMT B64Thm5.
From Flocq Require Import IEEE754.BinarySingleNaN.
Local Open Scope b64_scope.

(** The generator is any one whose uniform draws on [nextafter(0,1), 1) lie strictly between 0 and 1 and whose normal
    draws are finite ([rng_b64]); std::mt19937_64 with libstdc++'s uniform distribution has the first property
    (C66_uniform).  The functions of the backend need only be monotone with the usual special values.
    [returns P r]: every value returned satisfies P; a rejection loop that has not finished returns none. *)

Theorem C66_uniform : forall (F : TF) (s : list Z), mt_state s -> (bofZ 0 ≺ fst (runif01 (N:=B64_Num F) mt_rng s) /\ fst (runif01 (N:=B64_Num F) mt_rng s) ≺ bofZ 1) /\ mt_state (snd (runif01 (N:=B64_Num F) mt_rng s)).
Proof. exact unif_mt. Qed.
Print Assumptions C66_uniform.
Example C66_uniform_ex (F : TF) : bofZ 0 ≺ fst (runif01 (N:=B64_Num F) mt_rng (mt_seed 7)).
Proof. exact (proj1 (proj1 (C66_uniform F (mt_seed 7) (seed_state 7)))). Qed.

Theorem C66_seed : forall s : Z, mt_state (mt_seed s).
Proof. exact seed_state. Qed.
Print Assumptions C66_seed.
Example C66_seed_ex : length (mt_seed (-3)) = 312%nat.
Proof. exact (proj1 (C66_seed (-3))). Qed.

Theorem C66_engine : forall z : list Z -> b64, (forall s, b64_fin (z s)) -> rng_b64 (mt_sub z).
Proof. exact mt_sub_ok. Qed.
Print Assumptions C66_engine.
Example C66_engine_ex : rng_b64 (mt_sub (fun _ => bofZ 1)).
Proof. apply C66_engine. intros s. split; vm_compute; reflexivity. Qed.

Theorem C66_rexp : forall (F : TF) (E : Type) (G : Rng b64 E), rng_b64 G -> log01_ok F -> forall rate, b64_pos rate -> forall e : E, bofZ 0 ≤ fst (rexp (N:=B64_Num F) G rate e).
Proof. exact rexp_T. Qed.
Print Assumptions C66_rexp.
Example C66_rexp_ex : bofZ 0 ≤ fst (rexp (N:=B64_Num TFR) (mt_sub (fun _ => bofZ 1)) (bofZ 3) (g_mk (mt_sub (fun _ => bofZ 1)) 7)).
Proof. apply (C66_rexp TFR _ (mt_sub (fun _ => bofZ 1)) C66_engine_ex); [exact TFR_log01|split; vm_compute; reflexivity]. Qed.

Theorem C66_rweibull : forall (F : TF) (E : Type) (G : Rng b64 E), rng_b64 G -> log1p_ok F -> pow_ok F -> forall shape scale, big_eps shape -> big_eps scale -> forall e : E, bofZ 0 ≤ fst (rweibull (N:=B64_Num F) G shape scale e).
Proof. exact rweibull_T. Qed.
Print Assumptions C66_rweibull.
Example C66_rweibull_ex : bofZ 0 ≤ fst (rweibull (N:=B64_Num TFR) (mt_sub (fun _ => bofZ 1)) (bofZ 2) (bofZ 3) (g_mk (mt_sub (fun _ => bofZ 1)) 7)).
Proof. apply (C66_rweibull TFR _ (mt_sub (fun _ => bofZ 1)) C66_engine_ex); [exact TFR_log1p|exact TFR_pow|split; vm_compute; reflexivity|split; vm_compute; reflexivity]. Qed.

Theorem C66_rlnorm : forall (F : TF) (E : Type) (G : Rng b64 E), rng_b64 G -> exp_all_ok F -> forall mu sigma, b64_fin mu -> b64_pos sigma -> forall e : E, bofZ 0 ≤ fst (rlnorm (N:=B64_Num F) G mu sigma e).
Proof. exact rlnorm_T. Qed.
Print Assumptions C66_rlnorm.
Example C66_rlnorm_ex : bofZ 0 ≤ fst (rlnorm (N:=B64_Num TFR) (mt_sub (fun _ => bofZ 1)) (bofZ 1) (bofZ 2) (g_mk (mt_sub (fun _ => bofZ 1)) 7)).
Proof. apply (C66_rlnorm TFR _ (mt_sub (fun _ => bofZ 1)) C66_engine_ex); [exact TFR_exp_all|split; vm_compute; reflexivity|split; vm_compute; reflexivity]. Qed.

Theorem C66_rnorm : forall (F : TF) (E : Type) (G : Rng b64 E), rng_b64 G -> forall mu sigma, b64_fin mu -> b64_pos sigma -> forall e : E, number (fst (rnorm (N:=B64_Num F) G mu sigma e)).
Proof. exact rnorm_T. Qed.
Print Assumptions C66_rnorm.
Example C66_rnorm_ex : number (fst (rnorm (N:=B64_Num TFR) (mt_sub (fun _ => bofZ 1)) (bofZ 1) (bofZ 2) (g_mk (mt_sub (fun _ => bofZ 1)) 7))).
Proof. apply (C66_rnorm TFR _ (mt_sub (fun _ => bofZ 1)) C66_engine_ex); split; vm_compute; reflexivity. Qed.

Theorem C66_rcauchy : forall (F : TF) (E : Type) (G : Rng b64 E), rng_b64 G -> tan_ok F -> b64_pos (t_PI F) -> forall mu sigma, b64_fin mu -> b64_pos sigma -> forall e : E, number (fst (rcauchy (N:=B64_Num F) G mu sigma e)).
Proof. exact rcauchy_T. Qed.
Print Assumptions C66_rcauchy.
Example C66_rcauchy_ex : number (fst (rcauchy (N:=B64_Num TFR) (mt_sub (fun _ => bofZ 1)) (bofZ 1) (bofZ 2) (g_mk (mt_sub (fun _ => bofZ 1)) 7))).
Proof. apply (C66_rcauchy TFR _ (mt_sub (fun _ => bofZ 1)) C66_engine_ex); [exact TFR_tan|exact (proj1 TFR_PI)|split; vm_compute; reflexivity|split; vm_compute; reflexivity]. Qed.

Theorem C66_rlaplace : forall (F : TF) (E : Type) (G : Rng b64 E), rng_b64 G -> log01_ok F -> forall mu sigma, b64_fin mu -> b64_pos sigma -> forall e : E, number (fst (rlaplace (N:=B64_Num F) G mu sigma e)).
Proof. exact rlaplace_T. Qed.
Print Assumptions C66_rlaplace.
Example C66_rlaplace_ex : number (fst (rlaplace (N:=B64_Num TFR) (mt_sub (fun _ => bofZ 1)) (bofZ 1) (bofZ 2) (g_mk (mt_sub (fun _ => bofZ 1)) 7))).
Proof. apply (C66_rlaplace TFR _ (mt_sub (fun _ => bofZ 1)) C66_engine_ex); [exact TFR_log01|split; vm_compute; reflexivity|split; vm_compute; reflexivity]. Qed.

Theorem C66_rlogis : forall (F : TF) (E : Type) (G : Rng b64 E), rng_b64 G -> log_ok F -> forall mu sigma, b64_fin mu -> b64_pos sigma -> forall e : E, number (fst (rlogis (N:=B64_Num F) G mu sigma e)).
Proof. exact rlogis_T. Qed.
Print Assumptions C66_rlogis.
Example C66_rlogis_ex : number (fst (rlogis (N:=B64_Num TFR) (mt_sub (fun _ => bofZ 1)) (bofZ 1) (bofZ 2) (g_mk (mt_sub (fun _ => bofZ 1)) 7))).
Proof. apply (C66_rlogis TFR _ (mt_sub (fun _ => bofZ 1)) C66_engine_ex); [exact (proj1 TFR_log_std)|split; vm_compute; reflexivity|split; vm_compute; reflexivity]. Qed.

(** ** Rejection sampling *)

Theorem C66_rgamma : forall (F : TF) (E : Type) (G : Rng b64 E), rng_b64 G -> log_cut F -> forall shape scale, b64_fin shape -> bofZ 1 ≺ shape -> big_eps scale -> forall (fuel : nat) (e : E), returns (fun v => bofZ 0 ≤ v) (rgamma (N:=B64_Num F) G fuel shape scale e).
Proof. exact rgamma_T. Qed.
Print Assumptions C66_rgamma.
(** a run that returns *)
Example C66_rgamma_ex : exists v, rgamma (N:=B64_Num TFR) (tape halves zeros) 2 (badd (bofZ 1) tiny_shape) (bofZ 1) 0%nat = Some (v, 2%nat) /\ bofZ 0 ≤ v.
Proof.
  eexists. split; [exact (rgamma_one TFR TFR_few)|]. eapply (C66_rgamma TFR nat (tape halves zeros) (zeros_ok halves halves_ok) TFR_log_cut (badd (bofZ 1) tiny_shape) (bofZ 1)); [split; vm_compute; reflexivity|vm_compute; reflexivity|split; vm_compute; reflexivity|exact (rgamma_one TFR TFR_few)].
Qed.

Theorem C66_rgamma_small : forall (F : TF) (E : Type) (G : Rng b64 E), rng_b64 G -> log_cut F -> pow_unit F -> forall shape scale, big_eps shape -> shape ≤ bofZ 1 -> big_eps scale -> forall (depth fuel : nat) (e : E) (v : b64) (e' : E),
  rgamma_rec (N:=B64_Num F) G depth fuel shape scale e = Some (v, e') ->
  (v = B754_nan \/ bofZ 0 ≤ v) /\
  exists (depth' : nat) (e1 : E) (X : b64), rgamma_rec (N:=B64_Num F) G depth' fuel (badd (bofZ 1) shape) scale e1 = Some (X, e') /\ bofZ 0 ≤ X /\ (X ≺ plus_inf -> bofZ 0 ≤ v).
Proof. exact rgamma_small_T. Qed.
Print Assumptions C66_rgamma_small.
Example C66_rgamma_small_ex : exists v, rgamma (N:=B64_Num TFR) (tape halves zeros) 2 tiny_shape (bofZ 1) 0%nat = Some (v, 3%nat) /\ (v = B754_nan \/ bofZ 0 ≤ v).
Proof.
  assert (R := rgamma_zero TFR TFR_few zeros 0%nat (bofZ 1) eq_refl eq_refl eq_refl ltac:(split; vm_compute; reflexivity)). eexists. split; [exact R|].
  exact (proj1 (C66_rgamma_small TFR nat (tape halves zeros) (zeros_ok halves halves_ok) TFR_log_cut TFR_pow_unit tiny_shape (bofZ 1) tiny_big ltac:(vm_compute; reflexivity) ltac:(split; vm_compute; reflexivity) _ _ _ _ _ R)).
Qed.

Theorem C66_rchisq : forall (F : TF) (E : Type) (G : Rng b64 E), rng_b64 G -> log_cut F -> forall dof, b64_fin (bdiv dof (bofZ 2)) -> bofZ 1 ≺ bdiv dof (bofZ 2) -> big_eps dof -> forall (fuel : nat) (e : E), returns (fun v => bofZ 0 ≤ v) (rchisq (N:=B64_Num F) G fuel dof e).
Proof. exact rchisq_T. Qed.
Print Assumptions C66_rchisq.
Example C66_rchisq_ex : forall fuel, returns (fun v => bofZ 0 ≤ v) (rchisq (N:=B64_Num TFR) (mt_sub (fun _ => bofZ 1)) fuel (bofZ 5) (g_mk (mt_sub (fun _ => bofZ 1)) 7)).
Proof. intros fuel. apply (C66_rchisq TFR _ (mt_sub (fun _ => bofZ 1)) C66_engine_ex TFR_log_cut); try split; vm_compute; reflexivity. Qed.

Theorem C66_rchisq_small : forall (F : TF) (E : Type) (G : Rng b64 E), rng_b64 G -> log_cut F -> pow_unit F -> forall dof, big_eps dof -> big_eps (bdiv dof (bofZ 2)) -> forall (fuel : nat) (e : E), returns (fun v => v = B754_nan \/ bofZ 0 ≤ v) (rchisq (N:=B64_Num F) G fuel dof e).
Proof. exact rchisq_small_T. Qed.
Print Assumptions C66_rchisq_small.
Example C66_rchisq_small_ex : rchisq (N:=B64_Num TFR) (tape halves zeros) 2 tiny_dof 0%nat = Some (bofZ 0, 3%nat).
Proof. exact (rchisq_zero TFR TFR_few zeros 0%nat eq_refl). Qed.

Theorem C66_rinvgamma : forall (F : TF) (E : Type) (G : Rng b64 E), rng_b64 G -> log_cut F -> forall shape rate, b64_fin shape -> bofZ 1 ≺ shape -> b64_pos rate -> big_eps (bdiv (bofZ 1) rate) -> forall (fuel : nat) (e : E), returns (fun v => bofZ 0 ≤ v) (rinvgamma (N:=B64_Num F) G fuel shape rate e).
Proof. exact rinvgamma_T. Qed.
Print Assumptions C66_rinvgamma.
Example C66_rinvgamma_ex : forall fuel, returns (fun v => bofZ 0 ≤ v) (rinvgamma (N:=B64_Num TFR) (mt_sub (fun _ => bofZ 1)) fuel (bofZ 2) (bofZ 3) (g_mk (mt_sub (fun _ => bofZ 1)) 7)).
Proof. intros fuel. apply (C66_rinvgamma TFR _ (mt_sub (fun _ => bofZ 1)) C66_engine_ex TFR_log_cut); try split; vm_compute; reflexivity. Qed.

Theorem C66_rinvgamma_small : forall (F : TF) (E : Type) (G : Rng b64 E), rng_b64 G -> log_cut F -> pow_unit F -> forall shape rate, big_eps shape -> b64_pos rate -> big_eps (bdiv (bofZ 1) rate) -> forall (fuel : nat) (e : E), returns (fun v => v = B754_nan \/ bofZ 0 ≤ v) (rinvgamma (N:=B64_Num F) G fuel shape rate e).
Proof. exact rinvgamma_small_T. Qed.
Print Assumptions C66_rinvgamma_small.
Example C66_rinvgamma_small_ex : rinvgamma (N:=B64_Num TFR) (tape halves zeros) 2 tiny_shape (bofZ 1) 0%nat = Some (plus_inf, 3%nat).
Proof. exact (rinvgamma_inf TFR TFR_few). Qed.

Theorem C66_rbeta : forall (F : TF) (E : Type) (G : Rng b64 E), rng_b64 G -> log_cut F -> pow_unit F -> forall a b, big_eps a -> big_eps b -> forall (fuel : nat) (e : E), returns (fun v => v = B754_nan \/ (bofZ 0 ≤ v /\ v ≤ bofZ 1)) (rbeta (N:=B64_Num F) G fuel a b e).
Proof. exact rbeta_T. Qed.
Print Assumptions C66_rbeta.
Example C66_rbeta_ex : forall fuel, returns (fun v => v = B754_nan \/ (bofZ 0 ≤ v /\ v ≤ bofZ 1)) (rbeta (N:=B64_Num TFR) (mt_sub (fun _ => bofZ 1)) fuel (bofZ 2) (bofZ 3) (g_mk (mt_sub (fun _ => bofZ 1)) 7)).
Proof. intros fuel. apply (C66_rbeta TFR _ (mt_sub (fun _ => bofZ 1)) C66_engine_ex TFR_log_cut TFR_pow_unit); split; vm_compute; reflexivity. Qed.

Theorem C66_rf : forall (F : TF) (E : Type) (G : Rng b64 E), rng_b64 G -> log_cut F -> pow_unit F -> forall df1 df2, big_eps df1 -> big_eps (bdiv df1 (bofZ 2)) -> big_eps df2 -> big_eps (bdiv df2 (bofZ 2)) -> forall (fuel : nat) (e : E), returns (fun v => v = B754_nan \/ bofZ 0 ≤ v) (rf (N:=B64_Num F) G fuel df1 df2 e).
Proof. exact rf_T. Qed.
Print Assumptions C66_rf.
Example C66_rf_ex : forall fuel, returns (fun v => v = B754_nan \/ bofZ 0 ≤ v) (rf (N:=B64_Num TFR) (mt_sub (fun _ => bofZ 1)) fuel (bofZ 2) (bofZ 3) (g_mk (mt_sub (fun _ => bofZ 1)) 7)).
Proof. intros fuel. apply (C66_rf TFR _ (mt_sub (fun _ => bofZ 1)) C66_engine_ex TFR_log_cut TFR_pow_unit); split; vm_compute; reflexivity. Qed.

(** ** Discrete samplers: any generator and any functions *)

Theorem C66_rbern : forall (F : TF) (E : Type) (G : Rng b64 E) (prob : b64), bofZ 0 ≤ prob -> prob ≤ bofZ 1 -> forall e : E, fst (rbern (N:=B64_Num F) G prob e) = bofZ 0 \/ fst (rbern (N:=B64_Num F) G prob e) = bofZ 1.
Proof. exact rbern_T. Qed.
Print Assumptions C66_rbern.
Example C66_rbern_ex (F : TF) : fst (rbern (N:=B64_Num F) mt_rng (blit (1#3)) (mt_seed 7)) = bofZ 0 \/ fst (rbern (N:=B64_Num F) mt_rng (blit (1#3)) (mt_seed 7)) = bofZ 1.
Proof. apply (C66_rbern F); vm_compute; reflexivity. Qed.

Theorem C66_rradem : forall (F : TF) (E : Type) (G : Rng b64 E) (prob : b64), bofZ 0 ≤ prob -> prob ≤ bofZ 1 -> forall e : E, fst (rradem (N:=B64_Num F) G prob e) = bofZ (-1) \/ fst (rradem (N:=B64_Num F) G prob e) = bofZ 1.
Proof. exact rradem_T. Qed.
Print Assumptions C66_rradem.
Example C66_rradem_ex (F : TF) : fst (rradem (N:=B64_Num F) mt_rng (blit (1#3)) (mt_seed 7)) = bofZ (-1) \/ fst (rradem (N:=B64_Num F) mt_rng (blit (1#3)) (mt_seed 7)) = bofZ 1.
Proof. apply (C66_rradem F); vm_compute; reflexivity. Qed.

Theorem C66_rbinom : forall (F : TF) (E : Type) (G : Rng b64 E) (n : Z) (prob : b64), (0 <= n <= 2 ^ 53)%Z -> bofZ 0 ≤ prob -> prob ≤ bofZ 1 -> forall e : E, exists j : Z, (0 <= j <= n)%Z /\ fst (rbinom (N:=B64_Num F) G n prob e) = bofZ j.
Proof. exact rbinom_T. Qed.
Print Assumptions C66_rbinom.
Example C66_rbinom_ex (F : TF) : exists j, (0 <= j <= 1000)%Z /\ fst (rbinom (N:=B64_Num F) mt_rng 1000 (blit (1#3)) (mt_seed 7)) = bofZ j.
Proof. apply (C66_rbinom F); [split; discriminate|vm_compute; reflexivity|vm_compute; reflexivity]. Qed.

(** ** Refuted: draws that are no numbers, infinite or outside the support.
    [few_values F]: eight correct values of log, pow; the correctly rounded functions have them. *)

Theorem C66_few_values : few_values TFR.
Proof. exact TFR_few. Qed.
Print Assumptions C66_few_values.


Theorem C66_rinvgauss_refuted : forall F : TF, exists (G : Rng b64 nat) (mu lambda : b64), rng_b64 G /\ big_eps mu /\ big_eps lambda /\ fst (rinvgauss (N:=B64_Num F) G mu lambda 0%nat) = bofZ (-2).
Proof. exact rinvgauss_R. Qed.
Print Assumptions C66_rinvgauss_refuted.
Example C66_rinvgauss_refuted_ex : exists (G : Rng b64 nat) (mu lambda : b64), rng_b64 G /\ big_eps mu /\ big_eps lambda /\ fst (rinvgauss (N:=B64_Num TFR) G mu lambda 0%nat) = bofZ (-2).
Proof. apply (C66_rinvgauss_refuted TFR). Qed.

Theorem C66_rgamma_refuted : forall F : TF, few_values F -> exists (G : Rng b64 nat) (shape scale v : b64) (e : nat), rng_b64 G /\ big_eps shape  /\ big_eps scale /\ rgamma (N:=B64_Num F) G 2 shape scale 0%nat = Some (v, e) /\ v = B754_nan.
Proof. exact rgamma_R. Qed.
Print Assumptions C66_rgamma_refuted.
Example C66_rgamma_refuted_ex : exists (G : Rng b64 nat) (shape scale v : b64) (e : nat), rng_b64 G /\ big_eps shape  /\ big_eps scale /\ rgamma (N:=B64_Num TFR) G 2 shape scale 0%nat = Some (v, e) /\ v = B754_nan.
Proof. apply (C66_rgamma_refuted TFR); exact TFR_few. Qed.

Theorem C66_rbeta_refuted : forall F : TF, few_values F -> exists (G : Rng b64 nat) (a b v : b64) (e : nat), rng_b64 G /\ big_eps a  /\ big_eps b /\ rbeta (N:=B64_Num F) G 2 a b 0%nat = Some (v, e) /\ v = B754_nan.
Proof. exact rbeta_R. Qed.
Print Assumptions C66_rbeta_refuted.
Example C66_rbeta_refuted_ex : exists (G : Rng b64 nat) (a b v : b64) (e : nat), rng_b64 G /\ big_eps a  /\ big_eps b /\ rbeta (N:=B64_Num TFR) G 2 a b 0%nat = Some (v, e) /\ v = B754_nan.
Proof. apply (C66_rbeta_refuted TFR); exact TFR_few. Qed.

Theorem C66_rf_refuted : forall F : TF, few_values F -> exists (G : Rng b64 nat) (df1 df2 v : b64) (e : nat), rng_b64 G /\ big_eps df1  /\ big_eps df2 /\ rf (N:=B64_Num F) G 2 df1 df2 0%nat = Some (v, e) /\ v = B754_nan.
Proof. exact rf_R. Qed.
Print Assumptions C66_rf_refuted.
Example C66_rf_refuted_ex : exists (G : Rng b64 nat) (df1 df2 v : b64) (e : nat), rng_b64 G /\ big_eps df1  /\ big_eps df2 /\ rf (N:=B64_Num TFR) G 2 df1 df2 0%nat = Some (v, e) /\ v = B754_nan.
Proof. apply (C66_rf_refuted TFR); exact TFR_few. Qed.

Theorem C66_rt_refuted : forall F : TF, few_values F -> exists (G : Rng b64 nat) (dof v : b64) (e : nat), rng_b64 G /\ big_eps dof /\ rt (N:=B64_Num F) G 2 dof 0%nat = Some (v, e) /\ v = B754_nan.
Proof. exact rt_R. Qed.
Print Assumptions C66_rt_refuted.
Example C66_rt_refuted_ex : exists (G : Rng b64 nat) (dof v : b64) (e : nat), rng_b64 G /\ big_eps dof /\ rt (N:=B64_Num TFR) G 2 dof 0%nat = Some (v, e) /\ v = B754_nan.
Proof. apply (C66_rt_refuted TFR); exact TFR_few. Qed.

Theorem C66_rt_inf_refuted : forall F : TF, few_values F -> exists (G : Rng b64 nat) (dof v : b64) (e : nat), rng_b64 G /\ big_eps dof /\ rt (N:=B64_Num F) G 2 dof 0%nat = Some (v, e) /\ v = plus_inf.
Proof. exact rt_inf_R. Qed.
Print Assumptions C66_rt_inf_refuted.
Example C66_rt_inf_refuted_ex : exists (G : Rng b64 nat) (dof v : b64) (e : nat), rng_b64 G /\ big_eps dof /\ rt (N:=B64_Num TFR) G 2 dof 0%nat = Some (v, e) /\ v = plus_inf.
Proof. apply (C66_rt_inf_refuted TFR); exact TFR_few. Qed.

Theorem C66_rinvgamma_refuted : forall F : TF, few_values F -> exists (G : Rng b64 nat) (shape rate v : b64) (e : nat), rng_b64 G /\ big_eps shape  /\ big_eps rate /\ rinvgamma (N:=B64_Num F) G 2 shape rate 0%nat = Some (v, e) /\ v = plus_inf.
Proof. exact rinvgamma_R. Qed.
Print Assumptions C66_rinvgamma_refuted.
Example C66_rinvgamma_refuted_ex : exists (G : Rng b64 nat) (shape rate v : b64) (e : nat), rng_b64 G /\ big_eps shape  /\ big_eps rate /\ rinvgamma (N:=B64_Num TFR) G 2 shape rate 0%nat = Some (v, e) /\ v = plus_inf.
Proof. apply (C66_rinvgamma_refuted TFR); exact TFR_few. Qed.
