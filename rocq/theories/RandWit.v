(** Small facts used by the sampler theorems, and engines meeting their hypotheses. *)
From Coq Require Import Reals ZArith QArith Bool List Lra Lia.
From Verif Require Import Num Sanity ER ERTac B64 Rand Seed B64R SpecRand RandER RandGamma RandMore RandB64.
From Flocq Require Import Core IEEE754.BinarySingleNaN.
Local Open Scope R_scope.

Lemma seed_overloads {T E : Type} (N : Num T) (G : Rng T E) (trunc : T -> option Z) (fuel : nat) (n : Z) (a b : T) (s : Z) :
  runif_seed G a b s = fst (runif G a b (g_mk G s)) /\
  rnorm_seed G a b s = fst (rnorm G a b (g_mk G s)) /\
  rexp_seed G a s = fst (rexp G a (g_mk G s)) /\
  rcauchy_seed G a b s = fst (rcauchy G a b (g_mk G s)) /\
  rlaplace_seed G a b s = fst (rlaplace G a b (g_mk G s)) /\
  rlogis_seed G a b s = fst (rlogis G a b (g_mk G s)) /\
  rweibull_seed G a b s = fst (rweibull G a b (g_mk G s)) /\
  rlnorm_seed G a b s = fst (rlnorm G a b (g_mk G s)) /\
  rbern_seed G a s = fst (rbern G a (g_mk G s)) /\
  rradem_seed G a s = fst (rradem G a (g_mk G s)) /\
  rinvgauss_seed G a b s = fst (rinvgauss G a b (g_mk G s)) /\
  rbinom_seed G n a s = fst (rbinom G n a (g_mk G s)) /\
  rgamma_seed G fuel a b s = option_map fst (rgamma G fuel a b (g_mk G s)) /\
  rchisq_seed G fuel a s = option_map fst (rchisq G fuel a (g_mk G s)) /\
  rbeta_seed G fuel a b s = option_map fst (rbeta G fuel a b (g_mk G s)) /\
  rf_seed G fuel a b s = option_map fst (rf G fuel a b (g_mk G s)) /\
  rt_seed G fuel a s = option_map fst (rt G fuel a (g_mk G s)) /\
  rinvgamma_seed G fuel a b s = option_map fst (rinvgamma G fuel a b (g_mk G s)) /\
  rpois_seed G trunc fuel a s = option_map fst (rpois G trunc fuel a (g_mk G s)).
Proof. repeat split. Qed.

Lemma er_to_size_nonneg : trunc_nonneg er_to_size.
Proof.
  intros v s _ H. destruct v; try discriminate. cbn [er_to_size] in H. unfold fits in H.
  destruct (_ && _)%bool eqn:B; [|discriminate]. apply andb_prop in B. destruct B as [B _].
  apply Z.leb_le in B. congruence.
Qed.

Lemma rinvgamma_refuted (S : SF) : 0 < sf_eps S -> exists (E : Type) (G : Rng ER E) (k rate : R),
  rng_ok G /\ 0 < k /\ 0 < rate /\ invgamma_sanity2 (N:=ER_Num S) (Fin k) (Fin rate) = true /\
  forall fuel e, rinvgamma (N:=ER_Num S) G (Datatypes.S fuel) (Fin k) (Fin rate) e = Some (NaN, e).
Proof.
  intros H. exists unit, mid, 1, (2 / sf_eps S).
  assert (P : 0 < 2 / sf_eps S) by (apply Rdiv_lt_0_compat; lra).
  split; [exact mid_ok|]. split; [lra|]. split; [auto|]. split.
  - un_cls. er_arith. rdecide; auto.
  - intros. apply rinvgamma_nan; auto; [lra|]. replace (1 / (2 / sf_eps S)) with (sf_eps S / 2) by (field; lra). lra.
Qed.

(** An engine whose uniform distribution always returns its lower end. *)
Definition low_rng : Rng b64 unit :=
  {| g_unif := fun a _ e => (a, e); g_norm := fun e => (bofZ 0, e); g_next := fun _ _ => blit (1 # 2); g_mk := fun _ => tt |}.
Lemma half_R : B2R (blit (1 # 2)) = / 2.
Proof.
  replace (blit (1#2)) with (@B754_finite 53 1024 false (2^52) (-53) eq_refl) by (apply B2SF_inj; vm_compute; reflexivity).
  cbn. unfold F2R. cbn [Fnum Fexp]. cbn. lra.
Qed.
Lemma low_rng_ok : b64_rng_ok low_rng.
Proof.
  split.
  - split; [vm_compute; reflexivity|]. cbn [low_rng g_next]. rewrite half_R. lra.
  - intros a b e Fa Fb H. exists a, e. split; [reflexivity|]. split; [auto|lra].
Qed.
