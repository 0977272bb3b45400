(** C52: the samplers that combine several variates have the documented distribution. *)
From Coq Require Import ZArith QArith Reals Lra Lia List.
From Coquelicot Require Import Coquelicot.
From Verif Require Import Spec SpecSF NormR PowInt GammaFn BetaFn FamR SpecLaw.
From Verif Require Import Num Sanity ER ERTac Rand SpecRand RandER RandGamma RandMore RandWit Witness WitnessSF SpecDraw LawG.
Import ListNotations.
Local Open Scope R_scope.


(** The variates are the engine's standard normals z and uniforms u, independent by assumption.  Each
    theorem has two halves: what the code returns as a function of the variates, and the probability
    that this is at most x, as an integral ([region_mass], [mixed], [within] in SpecLaw.v).
    A round of Marsaglia and Tsang's method accepts with probability K and accepts a value <= x with
    probability K F(x); the probability of a value <= x within n rounds tends to F(x). *)

Theorem C52_rgamma : forall (S : SF) (E : Type) (G : Rng ER E), rng_ok G -> forall (k th : R), 1 < k -> 0 < th -> sf_eps S <= th ->
  (forall (e : E) (v : ER) (e' : E), (exists fuel : nat, rgamma (N:=ER_Num S) G fuel (Fin k) (Fin th) e = Some (v, e')) <->
     exists x : R, v = Fin ((k - 1 / 3) * x * th) /\ accepts G (k - 1 / 3) e x e') /\
  exists K : R, 0 < K <= 1 /\ region_mass (mt_accept (k - 1 / 3)) K /\
    forall x : R, 0 < x ->
      region_mass (fun z u : R => mt_accept (k - 1 / 3) z u /\ (k - 1 / 3) * mt_v (k - 1 / 3) z * th <= x) (K * gamma_cdf k th x) /\
      is_lim_seq (fun n : nat => within K (fun x : R => K * gamma_cdf k th x) n x) (gamma_cdf k th x).
Proof. exact rgamma_law. Qed.
Print Assumptions C52_rgamma.
(** shape 4/3, scale 3: on the counting engine the second proposal is taken, and below 2 lies
    the share gamma_cdf (4/3) 3 2 of the accepted mass *)
Example C52_rgamma_ex : (exists fuel, rgamma (N:=ER_Num SF0) counting fuel (Fin (4 / 3)) (Fin 3) 0%nat = Some (Fin ((4 / 3 - 1 / 3) * 1 * 3), 3%nat)) /\
  exists K, 0 < K <= 1 /\ region_mass (fun z u => mt_accept (4 / 3 - 1 / 3) z u /\ (4 / 3 - 1 / 3) * mt_v (4 / 3 - 1 / 3) z * 3 <= 2) (K * gamma_cdf (4 / 3) 3 2).
Proof.
  destruct (C52_rgamma SF0 nat counting counting_ok (4 / 3) 3 ltac:(lra) ltac:(lra) ltac:(ex_side)) as [A (K & HK & _ & B)]. split.
  - apply A. exists 1. split; [reflexivity|]. replace (4 / 3 - 1 / 3) with 1 by lra. exact counting_accepts.
  - exists K. split; [exact HK|]. apply B. lra.
Qed.

Theorem C52_rgamma_small : forall (S : SF) (E : Type) (G : Rng ER E), rng_ok G -> forall (k th : R), 0 < k <= 1 -> 0 < th -> sf_eps S <= th ->
  (forall (e : E) (v : ER) (e' : E), (exists fuel : nat, rgamma (N:=ER_Num S) G fuel (Fin k) (Fin th) e = Some (v, e')) ->
     exists (u : R) (e1 : E) (w : R), unit_draw G e u e1 /\ 0 < u < 1 /\ v = Fin (w * Rpower u (1 / k)) /\
       (exists fuel : nat, rgamma (N:=ER_Num S) G fuel (Fin (k + 1)) (Fin th) e1 = Some (Fin w, e')) /\
       forall x : R, w * Rpower u (1 / k) <= x <-> w <= x * Rpower u (- / k)) /\
  forall x : R, 0 < x ->
    is_RInt_gen (fun u : R => gamma_cdf (k + 1) th (x * Rpower u (- / k))) (at_right 0) (at_point 1) (gamma_cdf k th x).
Proof. exact rgamma_small_law. Qed.
Print Assumptions C52_rgamma_small.
Example C52_rgamma_small_ex : is_RInt_gen (fun u => gamma_cdf (1 / 2 + 1) 3 (5 * Rpower u (- / (1 / 2)))) (at_right 0) (at_point 1) (gamma_cdf (1 / 2) 3 5).
Proof. destruct (C52_rgamma_small SF0 nat counting counting_ok (1 / 2) 3 ltac:(lra) ltac:(lra) ltac:(ex_side)) as [_ B]. apply B. lra. Qed.
(** the first half is not vacuous: the engine "mid" returns *)
Example C52_rgamma_small_ex2 : exists fuel v u e1 w, rgamma (N:=ER_Num SF0) mid fuel (Fin (1 / 2)) (Fin 3) tt = Some (v, tt) /\
  unit_draw mid tt u e1 /\ v = Fin (w * Rpower u (1 / (1 / 2))).
Proof.
  destruct (ok_next mid mid_ok) as (c & Hc & C). destruct (ok_unif mid mid_ok c 1 tt) as (u & [] & Hu & _); [lra|].
  assert (D : unit_draw mid tt u tt) by (unfold unit_draw; now rewrite Hc).
  destruct (proj2 (rgamma_small_iff SF0 mid mid_ok (1 / 2) 3 tt (Fin ((1 + 1 / 2 - 1 / 3) * 1 * 3 * Rpower u (1 / (1 / 2)))) tt u tt ltac:(lra) ltac:(ex_side) D)) as [f Hf].
  { exists 1. split; [reflexivity|apply mid_accepts]. }
  destruct (C52_rgamma_small SF0 unit mid mid_ok (1 / 2) 3 ltac:(lra) ltac:(lra) ltac:(ex_side)) as [A _].
  destruct (A _ _ _ (ex_intro _ f Hf)) as (u' & e1 & w & Du & _ & Ev & _). exists f, (Fin ((1 + 1 / 2 - 1 / 3) * 1 * 3 * Rpower u (1 / (1 / 2)))), u', e1, w. split; [exact Hf|]. split; [exact Du|exact Ev].
Qed.

Theorem C52_rchisq : forall (S : SF) (E : Type) (G : Rng ER E) (d : R), 0 < d ->
  (forall (fuel : nat) (e : E), rchisq (N:=ER_Num S) G fuel (Fin d) e = rgamma (N:=ER_Num S) G fuel (Fin (d / 2)) (Fin 2) e) /\
  forall x : R, chisq_cdf d x = gamma_cdf (d / 2) 2 x.
Proof. exact rchisq_law. Qed.
Print Assumptions C52_rchisq.
Example C52_rchisq_ex : exists fuel, rchisq (N:=ER_Num SF0) counting fuel (Fin (8 / 3)) 0%nat = Some (Fin ((8 / 3 / 2 - 1 / 3) * 1 * 2), 3%nat).
Proof.
  destruct (C52_rgamma SF0 nat counting counting_ok (8 / 3 / 2) 2 ltac:(lra) ltac:(lra) ltac:(ex_side)) as [A _].
  destruct (proj2 (A 0%nat (Fin ((8 / 3 / 2 - 1 / 3) * 1 * 2)) 3%nat)) as [f Hf].
  - exists 1. split; [reflexivity|]. replace (8 / 3 / 2 - 1 / 3) with 1 by lra. exact counting_accepts.
  - exists f. rewrite (proj1 (C52_rchisq SF0 nat counting (8 / 3) ltac:(lra))). exact Hf.
Qed.

Theorem C52_rinvgamma : forall (S : SF) (E : Type) (G : Rng ER E), rng_ok G -> forall (a b : R), 0 < sf_eps S -> 0 < a -> 0 < b -> sf_eps S <= 1 / b ->
  (forall (fuel : nat) (e : E) (v : ER) (e' : E), rinvgamma (N:=ER_Num S) G fuel (Fin a) (Fin b) e = Some (v, e') ->
     exists w : R, 0 < w /\ rgamma (N:=ER_Num S) G fuel (Fin a) (Fin (1 / b)) e = Some (Fin w, e') /\ v = Fin (1 / w) /\
       forall x : R, 0 < x -> (1 / w <= x <-> 1 / x <= w)) /\
  forall x : R, 0 < x -> is_RInt_gen (gamma_pdf a (1 / b)) (at_point (1 / x)) (Rbar_locally p_infty) (invgamma_cdf a b x).
Proof. exact rinvgamma_law. Qed.
Print Assumptions C52_rinvgamma.
Example C52_rinvgamma_ex : is_RInt_gen (gamma_pdf 3 (1 / 2)) (at_point (1 / 4)) (Rbar_locally p_infty) (invgamma_cdf 3 2 4).
Proof. destruct (C52_rinvgamma SF0 nat counting counting_ok 3 2 ltac:(ex_side) ltac:(lra) ltac:(lra) ltac:(ex_side)) as [_ B]. apply B. lra. Qed.

Theorem C52_rbeta : forall (S : SF) (E : Type) (G : Rng ER E), rng_ok G -> forall (a b : R), 0 < sf_eps S <= 1 -> 0 < a -> 0 < b ->
  (forall (fuel : nat) (e : E) (v : ER) (e' : E), rbeta (N:=ER_Num S) G fuel (Fin a) (Fin b) e = Some (v, e') ->
     exists (X Y : R) (e1 : E), 0 < X /\ 0 < Y /\ rgamma (N:=ER_Num S) G fuel (Fin a) (Fin 1) e = Some (Fin X, e1) /\
       rgamma (N:=ER_Num S) G fuel (Fin b) (Fin 1) e1 = Some (Fin Y, e') /\ v = Fin (X / (X + Y)) /\
       forall x : R, 0 < x < 1 -> (X / (X + Y) <= x <-> X <= x / (1 - x) * Y)) /\
  forall x : R, 0 < x < 1 -> mixed (gamma_pdf b 1) (fun y : R => gamma_cdf a 1 (x / (1 - x) * y)) (beta_cdf a b x).
Proof. exact rbeta_law. Qed.
Print Assumptions C52_rbeta.
Example C52_rbeta_ex : mixed (gamma_pdf 3 1) (fun y => gamma_cdf (1 / 2) 1 (1 / 4 / (1 - 1 / 4) * y)) (beta_cdf (1 / 2) 3 (1 / 4)).
Proof. destruct (C52_rbeta SF0 nat counting counting_ok (1 / 2) 3 ltac:(ex_side) ltac:(lra) ltac:(lra)) as [_ B]. apply B. lra. Qed.

Theorem C52_rf : forall (S : SF) (E : Type) (G : Rng ER E), rng_ok G -> forall (d1 d2 : R), 0 < sf_eps S <= 2 -> sf_eps S <= d1 -> sf_eps S <= d2 ->
  (forall (fuel : nat) (e : E) (v : ER) (e' : E), rf (N:=ER_Num S) G fuel (Fin d1) (Fin d2) e = Some (v, e') ->
     exists (X Y : R) (e1 : E), 0 < X /\ 0 < Y /\ rchisq (N:=ER_Num S) G fuel (Fin d1) e = Some (Fin X, e1) /\
       rchisq (N:=ER_Num S) G fuel (Fin d2) e1 = Some (Fin Y, e') /\ v = Fin (d2 / d1 * X / Y) /\
       forall x : R, d2 / d1 * X / Y <= x <-> X <= d1 / d2 * x * Y) /\
  forall x : R, 0 < x -> mixed (chisq_pdf d2) (fun y : R => chisq_cdf d1 (d1 / d2 * x * y)) (f_cdf d1 d2 x).
Proof. exact rf_law. Qed.
Print Assumptions C52_rf.
Example C52_rf_ex : mixed (chisq_pdf 5) (fun y => chisq_cdf 3 (3 / 5 * 2 * y)) (f_cdf 3 5 2).
Proof. destruct (C52_rf SF0 nat counting counting_ok 3 5 ltac:(ex_side) ltac:(ex_side) ltac:(ex_side)) as [_ B]. apply B. lra. Qed.

Theorem C52_rt : forall (S : SF) (E : Type) (G : Rng ER E), rng_ok G -> forall n : R, 0 < sf_eps S <= 2 -> sf_eps S <= n ->
  (forall (fuel : nat) (e : E) (v : ER) (e' : E), rt (N:=ER_Num S) G fuel (Fin n) e = Some (v, e') ->
     exists (z X : R) (e1 : E), 0 < X /\ normal_draw G e z e1 /\ rchisq (N:=ER_Num S) G fuel (Fin n) e1 = Some (Fin X, e') /\
       v = Fin (z / R_sqrt.sqrt (X / n)) /\ forall x : R, z / R_sqrt.sqrt (X / n) <= x <-> z <= x * R_sqrt.sqrt (X / n)) /\
  forall x : R, mixed (chisq_pdf n) (fun y : R => norm_cdf 0 1 (x * R_sqrt.sqrt (y / n))) (t_cdf n x).
Proof. exact rt_law. Qed.
Print Assumptions C52_rt.
Example C52_rt_ex : mixed (chisq_pdf 3) (fun y => norm_cdf 0 1 (-2 * R_sqrt.sqrt (y / 3))) (t_cdf 3 (-2)).
Proof. destruct (C52_rt SF0 nat counting counting_ok 3 ltac:(ex_side) ltac:(ex_side)) as [_ B]. apply B. Qed.

Theorem C52_rinvgauss : forall (S : SF) (E : Type) (G : Rng ER E), rng_ok G -> forall (mu l : R), 0 < mu -> 0 < l -> exists draw : R -> R -> R,
  (forall e : E, exists (z u : R) (e1 e2 : E), normal_draw G e z e1 /\ unit_draw G e1 u e2 /\ 0 < u < 1 /\
     rinvgauss (N:=ER_Num S) G (Fin mu) (Fin l) e = (Fin (draw z u), e2)) /\
  forall x : R, 0 < x -> region_mass (fun z u : R => draw z u <= x) (invgauss_cdf mu l x).
Proof. exact rinvgauss_law. Qed.
Print Assumptions C52_rinvgauss.
Example C52_rinvgauss_ex : exists draw : R -> R -> R, region_mass (fun z u => draw z u <= 1) (invgauss_cdf 2 3 1).
Proof. destruct (C52_rinvgauss SF0 nat counting counting_ok 2 3 ltac:(lra) ltac:(lra)) as (d & _ & B). exists d. apply B. lra. Qed.

(** rbinom: [tosses G p e bs e']: the uniforms read from [e] on, compared with p, give the booleans
    [bs].  The draw is the number of successes, whose probability is the binomial one. *)

Theorem C52_rbinom : forall (S : SF) (E : Type) (G : Rng ER E), rng_ok G -> forall (n : nat) (p : R), 0 <= p <= 1 ->
  (forall e : E, exists (bs : list bool) (e' : E), tosses G p e bs e' /\ length bs = n /\
     rbinom (N:=ER_Num S) G (Z.of_nat n) (Fin p) e = (Fin (INR (wins bs)), e')) /\
  forall k : nat, win_prob n p k = binom_pmf n p k.
Proof. exact rbinom_law. Qed.
Print Assumptions C52_rbinom.
Example C52_rbinom_ex : win_prob 3 (1 / 4) 2 = 3 * (1 / 4) ^ 2 * (3 / 4).
Proof. unfold win_prob. cbn. lra. Qed.
Example C52_rbinom_ex2 e : exists bs e', length bs = 5%nat /\ rbinom (N:=ER_Num SF0) counting 5 (Fin (1 / 4)) e = (Fin (INR (wins bs)), e').
Proof.
  destruct (C52_rbinom SF0 nat counting counting_ok 5 (1 / 4) ltac:(lra)) as [A _].
  destruct (A e) as (bs & e' & _ & L & H). exists bs, e'. split; [exact L|exact H].
Qed.
