(** NaN policy of the samplers in any arithmetic (C03).  Generated text. *)
From Coq Require Import ZArith Bool Reals Lra.
From Verif Require Import Num Sanity Prob Quant Laws NanSpec NanPolicy Rand ER ERTac Support Witness QtBad.

Ltac rnan := match goal with |- is_nan (fst ?r) = true /\ snd ?r = ?e =>
   let E := fresh in enough (r = (nan, e)) as E by (rewrite E; split; [apply is_nan_nan|reflexivity]) end;
   match goal with H : _ |- _ => revert H end; nan_core.
Ltac rnan2 := match goal with H : _ \/ _ |- _ => revert H end; nan_core.

Lemma runif_nan : forall (T E : Type) (N : Num T) (L : NumLaws T) (G : Rng T E) (a b : T) (e : E),
  NaNv a \/ NaNv b \/ leb b a = true ->
  is_nan (fst (runif G a b e)) = true /\ snd (runif G a b e) = e.
Proof. intros; unfold runif; rnan. Qed.

Lemma rnorm_nan : forall (T E : Type) (N : Num T) (L : NumLaws T) (G : Rng T E) (mu sigma : T) (e : E),
  NaNv mu \/ NaNv sigma \/ negative sigma ->
  is_nan (fst (rnorm G mu sigma e)) = true /\ snd (rnorm G mu sigma e) = e.
Proof. intros; unfold rnorm; rnan. Qed.

Lemma rexp_nan : forall (T E : Type) (N : Num T) (L : NumLaws T) (G : Rng T E) (rate : T) (e : E),
  NaNv rate \/ negative rate ->
  is_nan (fst (rexp G rate e)) = true /\ snd (rexp G rate e) = e.
Proof. intros; unfold rexp; rnan. Qed.

Lemma rcauchy_nan : forall (T E : Type) (N : Num T) (L : NumLaws T) (G : Rng T E) (mu sigma : T) (e : E),
  NaNv mu \/ NaNv sigma \/ negative sigma ->
  is_nan (fst (rcauchy G mu sigma e)) = true /\ snd (rcauchy G mu sigma e) = e.
Proof. intros; unfold rcauchy; rnan. Qed.

Lemma rlaplace_nan : forall (T E : Type) (N : Num T) (L : NumLaws T) (G : Rng T E) (mu sigma : T) (e : E),
  NaNv mu \/ NaNv sigma \/ negative sigma ->
  is_nan (fst (rlaplace G mu sigma e)) = true /\ snd (rlaplace G mu sigma e) = e.
Proof. intros; unfold rlaplace; rnan. Qed.

Lemma rlogis_nan : forall (T E : Type) (N : Num T) (L : NumLaws T) (G : Rng T E) (mu sigma : T) (e : E),
  NaNv mu \/ NaNv sigma \/ negative sigma ->
  is_nan (fst (rlogis G mu sigma e)) = true /\ snd (rlogis G mu sigma e) = e.
Proof. intros; unfold rlogis; rnan. Qed.

Lemma rweibull_nan : forall (T E : Type) (N : Num T) (L : NumLaws T) (G : Rng T E) (shape scale : T) (e : E),
  NaNv shape \/ NaNv scale \/ negative shape \/ negative scale ->
  is_nan (fst (rweibull G shape scale e)) = true /\ snd (rweibull G shape scale e) = e.
Proof. intros; unfold rweibull; rnan. Qed.

Lemma rlnorm_nan : forall (T E : Type) (N : Num T) (L : NumLaws T) (G : Rng T E) (mu sigma : T) (e : E),
  NaNv mu \/ NaNv sigma \/ negative sigma ->
  is_nan (fst (rlnorm G mu sigma e)) = true /\ snd (rlnorm G mu sigma e) = e.
Proof. intros; unfold rlnorm; rnan. Qed.

Lemma rbern_nan : forall (T E : Type) (N : Num T) (L : NumLaws T) (G : Rng T E) (prob : T) (e : E),
  not_prob prob ->
  is_nan (fst (rbern G prob e)) = true /\ snd (rbern G prob e) = e.
Proof. intros; unfold rbern; rnan. Qed.

Lemma rradem_nan : forall (T E : Type) (N : Num T) (L : NumLaws T) (G : Rng T E) (prob : T) (e : E),
  not_prob prob ->
  is_nan (fst (rradem G prob e)) = true /\ snd (rradem G prob e) = e.
Proof. intros; unfold rradem; rnan. Qed.

Lemma rbinom_nan : forall (T E : Type) (N : Num T) (L : NumLaws T) (G : Rng T E) (n : Z) (prob : T) (e : E),
  (n < 0)%Z \/ not_prob prob ->
  is_nan (fst (rbinom G n prob e)) = true /\ snd (rbinom G n prob e) = e.
Proof. intros; unfold rbinom; rnan. Qed.

Lemma rgamma_nan : forall (T E : Type) (N : Num T) (L : NumLaws T) (G : Rng T E) (fuel : nat) (shape scale : T) (e : E),
  NaNv shape \/ NaNv scale \/ negative shape \/ negative scale ->
  exists v, rgamma G (S fuel) shape scale e = Some (v, e) /\ is_nan v = true.
Proof. intros; exists nan; split; [|apply is_nan_nan]; unfold rgamma, rgamma_rec; rnan2. Qed.

Lemma rchisq_nan : forall (T E : Type) (N : Num T) (L : NumLaws T) (G : Rng T E) (fuel : nat) (dof : T) (e : E),
  NaNv dof \/ negative dof ->
  exists v, rchisq G (S fuel) dof e = Some (v, e) /\ is_nan v = true.
Proof. intros; exists nan; split; [|apply is_nan_nan]; unfold rchisq; rnan2. Qed.

Lemma rbeta_nan : forall (T E : Type) (N : Num T) (L : NumLaws T) (G : Rng T E) (fuel : nat) (a b : T) (e : E),
  NaNv a \/ NaNv b \/ negative a \/ negative b ->
  exists v, rbeta G (S fuel) a b e = Some (v, e) /\ is_nan v = true.
Proof. intros; exists nan; split; [|apply is_nan_nan]; unfold rbeta; rnan2. Qed.

Lemma rf_nan : forall (T E : Type) (N : Num T) (L : NumLaws T) (G : Rng T E) (fuel : nat) (df1 df2 : T) (e : E),
  NaNv df1 \/ NaNv df2 \/ negative df1 \/ negative df2 ->
  exists v, rf G (S fuel) df1 df2 e = Some (v, e) /\ is_nan v = true.
Proof. intros; exists nan; split; [|apply is_nan_nan]; unfold rf; rnan2. Qed.

Lemma rt_nan : forall (T E : Type) (N : Num T) (L : NumLaws T) (G : Rng T E) (fuel : nat) (dof : T) (e : E),
  NaNv dof \/ negative dof ->
  exists v, rt G (S fuel) dof e = Some (v, e) /\ is_nan v = true.
Proof. intros; exists nan; split; [|apply is_nan_nan]; unfold rt; rnan2. Qed.

Lemma rinvgamma_nan : forall (T E : Type) (N : Num T) (L : NumLaws T) (G : Rng T E) (fuel : nat) (shape rate : T) (e : E),
  NaNv shape \/ NaNv rate \/ negative shape \/ negative rate ->
  exists v, rinvgamma G (S fuel) shape rate e = Some (v, e) /\ is_nan v = true.
Proof. intros; exists nan; split; [|apply is_nan_nan]; unfold rinvgamma; rnan2. Qed.

Lemma rpois_nan : forall (T E : Type) (N : Num T) (L : NumLaws T) (G : Rng T E) (trunc : T -> option Z) (fuel : nat) (rate : T) (e : E),
  NaNv rate \/ negative rate ->
  exists v, rpois G trunc fuel rate e = Some (v, e) /\ is_nan v = true.
Proof. intros; exists nan; split; [|apply is_nan_nan]; unfold rpois; rnan2. Qed.

(** rand/rinvgauss.ipp 31-55 has no parameter check: NaN parameters propagate, negative ones
    give a number. *)
Lemma rinvgauss_nan_par : forall (S : SF) (E : Type) (G : Rng ER E) (mu lambda : ER) (e : E),
  mu = NaN \/ lambda = NaN -> fst (rinvgauss (N:=ER_Num S) G mu lambda e) = NaN.
Proof.
  intros S E G mu lambda e H. unfold rinvgauss, rinvgauss_root. destruct (rnorm01 G e) as [nu e1].
  destruct (runif01 G e1) as [z e2]. un_cls.
  destruct H as [->| ->]; nans; cbn [esqrt]; nans; destruct (eleb _ _); reflexivity.
Qed.

(** A fixed engine: every uniform is 1/2, every normal 0. *)
Definition flat : Rng ER unit :=
  {| g_unif := fun _ _ e => (Fin (1/2), e); g_norm := fun e => (Fin 0, e); g_next := fun a _ => a;
     g_mk := fun _ => tt |}.

Lemma rinvgauss_refuted : forall (S : SF), exists (E : Type) (G : Rng ER E) (mu lambda : ER) (e : E),
  negative (N:=ER_Num S) mu /\ is_nan (Num:=ER_Num S) (fst (rinvgauss (N:=ER_Num S) G mu lambda e)) = false.
Proof.
  intros S. exists unit, flat, (Fin (-1)), (Fin 1), tt.
  split; [unfold negative; un_cls; er_red; rdecide; reflexivity|].
  unfold rinvgauss, rinvgauss_root, rnorm01, runif01, rnorm, runif.
  er_all. cbn [flat g_norm g_unif g_next]. er_all.
  replace (R_sqrt.sqrt _) with 0%R.
  2:{ symmetry. match goal with |- R_sqrt.sqrt ?x = _ => replace x with 0%R by lra end. apply sqrt_0. }
  replace ((-1 * -1 * ((0 + 1 * 0) * (0 + 1 * 0)) - -1 * 0) / (2 * 1))%R with 0%R by lra.
  rewrite !ediv_F by lra. er_red. destruct (Rleb _ _); reflexivity.
Qed.
