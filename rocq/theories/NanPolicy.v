(** NaN policy of the scalar functions in any arithmetic (C01, C02).
    Generated text: one lemma per function, one tactic. *)
From Coq Require Import ZArith Bool.
From Verif Require Import Num Sanity Prob Dens Quant Laws NanSpec.

Ltac nan_rw :=
  repeat match goal with
  | H : ltb ?x (ofZ 0) = true |- _ =>
    lazymatch goal with
    | _ : ltb x epsilon = true |- _ => fail
    | _ => pose proof (lt0_lt_eps x H)
    end
  | H : (?a < 0)%Z |- _ => apply Z.ltb_lt in H
  end;
  repeat match goal with
  | H : ?l = true |- _ => progress rewrite H
  end.
Ltac nan_core :=
  unfold NaNv, negative, not_prob; intros;
  cbv beta delta [prob_val_check bern_sanity radem_sanity binom_sanity pois_sanity
      beta_sanity2 beta_sanity3 cauchy_sanity2 cauchy_sanity3 chisq_sanity1 chisq_sanity2
      exp_sanity1 exp_sanity2 f_sanity2 f_sanity3 gamma_sanity2 gamma_sanity3
      invgamma_sanity2 invgamma_sanity3 invgauss_sanity2 invgauss_sanity3
      laplace_sanity2 laplace_sanity3 lnorm_sanity2 lnorm_sanity3 logis_sanity2 logis_sanity3
      norm_sanity2 norm_sanity3 t_sanity1 t_sanity2 unif_sanity2 unif_sanity3
      weibull_sanity2 weibull_sanity3 any_nan2];
  repeat match goal with H : _ \/ _ |- _ => destruct H end;
  nan_rw; rewrite ?orb_true_r; cbv beta iota delta [negb andb orb]; try reflexivity;
  repeat (match goal with
          | |- context [negb (is_nan ?x)] => destruct (is_nan x)
          | |- context [is_nan ?x || is_nan ?y] => destruct (is_nan x), (is_nan y)
          | |- context [if is_nan ?x then _ else _] => destruct (is_nan x)
          | |- context [if is_inf ?x then _ else _] => destruct (is_inf x)
          | |- context [if ltb ?x ?y then false else _] => destruct (ltb x y)
          | |- context [if leb ?x ?y then false else _] => destruct (leb x y)
          | |- context [if (?x <? ?y)%Z then false else _] => destruct (x <? y)%Z
          | |- context [if true && _ then _ else _] => idtac
          end; cbv beta iota delta [negb andb orb]; try reflexivity).
Ltac nan_tac := intros; match goal with |- is_nan ?v = true =>
   let E := fresh in enough (v = nan) as E by (rewrite E; apply is_nan_nan) end;
   match goal with H : _ |- _ => revert H end; nan_core.

Lemma dnorm_nan : forall (T : Type) (N : Num T) (L : NumLaws T) (x : T) (mu : T) (sigma : T) (lf : bool),
  NaNv x \/ NaNv mu \/ NaNv sigma \/ negative sigma ->
  is_nan (dnorm x mu sigma lf) = true.
Proof. intros; unfold dnorm; nan_tac. Qed.

Lemma pnorm_nan : forall (T : Type) (N : Num T) (L : NumLaws T) (x : T) (mu : T) (sigma : T) (lf : bool),
  NaNv x \/ NaNv mu \/ NaNv sigma \/ negative sigma ->
  is_nan (pnorm x mu sigma lf) = true.
Proof. intros; unfold pnorm; nan_tac. Qed.

Lemma qnorm_nan : forall (T : Type) (N : Num T) (L : NumLaws T) (p : T) (mu : T) (sigma : T),
  not_prob p \/ NaNv mu \/ NaNv sigma \/ negative sigma ->
  is_nan (qnorm p mu sigma) = true.
Proof. intros; unfold qnorm; nan_tac. Qed.

Lemma dcauchy_nan : forall (T : Type) (N : Num T) (L : NumLaws T) (x : T) (mu : T) (sigma : T) (lf : bool),
  NaNv x \/ NaNv mu \/ NaNv sigma \/ negative sigma ->
  is_nan (dcauchy x mu sigma lf) = true.
Proof. intros; unfold dcauchy; nan_tac. Qed.

Lemma pcauchy_nan : forall (T : Type) (N : Num T) (L : NumLaws T) (x : T) (mu : T) (sigma : T) (lf : bool),
  NaNv x \/ NaNv mu \/ NaNv sigma \/ negative sigma ->
  is_nan (pcauchy x mu sigma lf) = true.
Proof. intros; unfold pcauchy; nan_tac. Qed.

Lemma qcauchy_nan : forall (T : Type) (N : Num T) (L : NumLaws T) (p : T) (mu : T) (sigma : T),
  not_prob p \/ NaNv mu \/ NaNv sigma \/ negative sigma ->
  is_nan (qcauchy p mu sigma) = true.
Proof. intros; unfold qcauchy; nan_tac. Qed.

Lemma dlaplace_nan : forall (T : Type) (N : Num T) (L : NumLaws T) (x : T) (mu : T) (sigma : T) (lf : bool),
  NaNv x \/ NaNv mu \/ NaNv sigma \/ negative sigma ->
  is_nan (dlaplace x mu sigma lf) = true.
Proof. intros; unfold dlaplace; nan_tac. Qed.

Lemma plaplace_nan : forall (T : Type) (N : Num T) (L : NumLaws T) (x : T) (mu : T) (sigma : T) (lf : bool),
  NaNv x \/ NaNv mu \/ NaNv sigma \/ negative sigma ->
  is_nan (plaplace x mu sigma lf) = true.
Proof. intros; unfold plaplace; nan_tac. Qed.

Lemma qlaplace_nan : forall (T : Type) (N : Num T) (L : NumLaws T) (p : T) (mu : T) (sigma : T),
  not_prob p \/ NaNv mu \/ NaNv sigma \/ negative sigma ->
  is_nan (qlaplace p mu sigma) = true.
Proof. intros; unfold qlaplace; nan_tac. Qed.

Lemma dlogis_nan : forall (T : Type) (N : Num T) (L : NumLaws T) (x : T) (mu : T) (sigma : T) (lf : bool),
  NaNv x \/ NaNv mu \/ NaNv sigma \/ negative sigma ->
  is_nan (dlogis x mu sigma lf) = true.
Proof. intros; unfold dlogis; nan_tac. Qed.

Lemma plogis_nan : forall (T : Type) (N : Num T) (L : NumLaws T) (x : T) (mu : T) (sigma : T) (lf : bool),
  NaNv x \/ NaNv mu \/ NaNv sigma \/ negative sigma ->
  is_nan (plogis x mu sigma lf) = true.
Proof. intros; unfold plogis; nan_tac. Qed.

Lemma qlogis_nan : forall (T : Type) (N : Num T) (L : NumLaws T) (p : T) (mu : T) (sigma : T),
  not_prob p \/ NaNv mu \/ NaNv sigma \/ negative sigma ->
  is_nan (qlogis p mu sigma) = true.
Proof. intros; unfold qlogis; nan_tac. Qed.

Lemma dlnorm_nan : forall (T : Type) (N : Num T) (L : NumLaws T) (x : T) (mu : T) (sigma : T) (lf : bool),
  NaNv x \/ NaNv mu \/ NaNv sigma \/ negative sigma ->
  is_nan (dlnorm x mu sigma lf) = true.
Proof. intros; unfold dlnorm; nan_tac. Qed.

Lemma plnorm_nan : forall (T : Type) (N : Num T) (L : NumLaws T) (x : T) (mu : T) (sigma : T) (lf : bool),
  NaNv x \/ NaNv mu \/ NaNv sigma \/ negative sigma ->
  is_nan (plnorm x mu sigma lf) = true.
Proof. intros; unfold plnorm; nan_tac. Qed.

Lemma qlnorm_nan : forall (T : Type) (N : Num T) (L : NumLaws T) (p : T) (mu : T) (sigma : T),
  not_prob p \/ NaNv mu \/ NaNv sigma \/ negative sigma ->
  is_nan (qlnorm p mu sigma) = true.
Proof. intros; unfold qlnorm; nan_tac. Qed.

Lemma dbeta_nan : forall (T : Type) (N : Num T) (L : NumLaws T) (x : T) (a : T) (b : T) (lf : bool),
  NaNv x \/ NaNv a \/ NaNv b \/ negative a \/ negative b ->
  is_nan (dbeta x a b lf) = true.
Proof. intros; unfold dbeta; nan_tac. Qed.

Lemma pbeta_nan : forall (T : Type) (N : Num T) (L : NumLaws T) (x : T) (a : T) (b : T) (lf : bool),
  NaNv x \/ NaNv a \/ NaNv b \/ negative a \/ negative b ->
  is_nan (pbeta x a b lf) = true.
Proof. intros; unfold pbeta; nan_tac. Qed.

Lemma qbeta_nan : forall (T : Type) (N : Num T) (L : NumLaws T) (p : T) (a : T) (b : T),
  not_prob p \/ NaNv a \/ NaNv b \/ negative a \/ negative b ->
  is_nan (qbeta p a b) = true.
Proof. intros; unfold qbeta; nan_tac. Qed.

Lemma dchisq_nan : forall (T : Type) (N : Num T) (L : NumLaws T) (x : T) (dof : T) (lf : bool),
  NaNv x \/ NaNv dof \/ negative dof ->
  is_nan (dchisq x dof lf) = true.
Proof. intros; unfold dchisq; nan_tac. Qed.

Lemma pchisq_nan : forall (T : Type) (N : Num T) (L : NumLaws T) (x : T) (dof : T) (lf : bool),
  NaNv x \/ NaNv dof \/ negative dof ->
  is_nan (pchisq x dof lf) = true.
Proof. intros; unfold pchisq; nan_tac. Qed.

Lemma qchisq_nan : forall (T : Type) (N : Num T) (L : NumLaws T) (p : T) (dof : T),
  not_prob p \/ NaNv dof \/ negative dof ->
  is_nan (qchisq p dof) = true.
Proof. intros; unfold qchisq; nan_tac. Qed.

Lemma dexp_nan : forall (T : Type) (N : Num T) (L : NumLaws T) (x : T) (rate : T) (lf : bool),
  NaNv x \/ NaNv rate \/ negative rate ->
  is_nan (dexp x rate lf) = true.
Proof. intros; unfold dexp; nan_tac. Qed.

Lemma pexp_nan : forall (T : Type) (N : Num T) (L : NumLaws T) (x : T) (rate : T) (lf : bool),
  NaNv x \/ NaNv rate \/ negative rate ->
  is_nan (pexp x rate lf) = true.
Proof. intros; unfold pexp; nan_tac. Qed.

Lemma qexp_nan : forall (T : Type) (N : Num T) (L : NumLaws T) (p : T) (rate : T),
  not_prob p \/ NaNv rate \/ negative rate ->
  is_nan (qexp p rate) = true.
Proof. intros; unfold qexp; nan_tac. Qed.

Lemma df_nan : forall (T : Type) (N : Num T) (L : NumLaws T) (x : T) (df1 : T) (df2 : T) (lf : bool),
  NaNv x \/ NaNv df1 \/ NaNv df2 \/ negative df1 \/ negative df2 ->
  is_nan (df x df1 df2 lf) = true.
Proof. intros; unfold df; nan_tac. Qed.

Lemma pf_nan : forall (T : Type) (N : Num T) (L : NumLaws T) (x : T) (df1 : T) (df2 : T) (lf : bool),
  NaNv x \/ NaNv df1 \/ NaNv df2 \/ negative df1 \/ negative df2 ->
  is_nan (pf x df1 df2 lf) = true.
Proof. intros; unfold pf; nan_tac. Qed.

Lemma qf_nan : forall (T : Type) (N : Num T) (L : NumLaws T) (p : T) (df1 : T) (df2 : T),
  not_prob p \/ NaNv df1 \/ NaNv df2 \/ negative df1 \/ negative df2 ->
  is_nan (qf p df1 df2) = true.
Proof. intros; unfold qf; nan_tac. Qed.

Lemma dgamma_nan : forall (T : Type) (N : Num T) (L : NumLaws T) (x : T) (shape : T) (scale : T) (lf : bool),
  NaNv x \/ NaNv shape \/ NaNv scale \/ negative shape \/ negative scale ->
  is_nan (dgamma x shape scale lf) = true.
Proof. intros; unfold dgamma; nan_tac. Qed.

Lemma pgamma_nan : forall (T : Type) (N : Num T) (L : NumLaws T) (x : T) (shape : T) (scale : T) (lf : bool),
  NaNv x \/ NaNv shape \/ NaNv scale \/ negative shape \/ negative scale ->
  is_nan (pgamma x shape scale lf) = true.
Proof. intros; unfold pgamma; nan_tac. Qed.

Lemma qgamma_nan : forall (T : Type) (N : Num T) (L : NumLaws T) (p : T) (shape : T) (scale : T),
  not_prob p \/ NaNv shape \/ NaNv scale \/ negative shape \/ negative scale ->
  is_nan (qgamma p shape scale) = true.
Proof. intros; unfold qgamma; nan_tac. Qed.

Lemma dinvgamma_nan : forall (T : Type) (N : Num T) (L : NumLaws T) (x : T) (shape : T) (rate : T) (lf : bool),
  NaNv x \/ NaNv shape \/ NaNv rate \/ negative shape \/ negative rate ->
  is_nan (dinvgamma x shape rate lf) = true.
Proof. intros; unfold dinvgamma; nan_tac. Qed.

Lemma pinvgamma_nan : forall (T : Type) (N : Num T) (L : NumLaws T) (x : T) (shape : T) (rate : T) (lf : bool),
  NaNv x \/ NaNv shape \/ NaNv rate \/ negative shape \/ negative rate ->
  is_nan (pinvgamma x shape rate lf) = true.
Proof. intros; unfold pinvgamma; nan_tac. Qed.

Lemma qinvgamma_nan : forall (T : Type) (N : Num T) (L : NumLaws T) (p : T) (shape : T) (rate : T),
  not_prob p \/ NaNv shape \/ NaNv rate \/ negative shape \/ negative rate ->
  is_nan (qinvgamma p shape rate) = true.
Proof. intros; unfold qinvgamma; nan_tac. Qed.

Lemma dinvgauss_nan : forall (T : Type) (N : Num T) (L : NumLaws T) (x : T) (mu : T) (lambda : T) (lf : bool),
  NaNv x \/ NaNv mu \/ NaNv lambda \/ negative mu \/ negative lambda ->
  is_nan (dinvgauss x mu lambda lf) = true.
Proof. intros; unfold dinvgauss; nan_tac. Qed.

Lemma pinvgauss_nan : forall (T : Type) (N : Num T) (L : NumLaws T) (x : T) (mu : T) (lambda : T) (lf : bool),
  NaNv x \/ NaNv mu \/ NaNv lambda \/ negative mu \/ negative lambda ->
  is_nan (pinvgauss x mu lambda lf) = true.
Proof. intros; unfold pinvgauss; nan_tac. Qed.

Lemma qinvgauss_nan : forall (T : Type) (N : Num T) (L : NumLaws T) (p : T) (mu : T) (lambda : T),
  not_prob p \/ NaNv mu \/ NaNv lambda \/ negative mu \/ negative lambda ->
  is_nan (qinvgauss p mu lambda) = true.
Proof. intros; unfold qinvgauss; nan_tac. Qed.

Lemma dt_nan : forall (T : Type) (N : Num T) (L : NumLaws T) (x : T) (dof : T) (lf : bool),
  NaNv x \/ NaNv dof \/ negative dof ->
  is_nan (dt x dof lf) = true.
Proof. intros; unfold dt; nan_tac. Qed.

Lemma pt_nan : forall (T : Type) (N : Num T) (L : NumLaws T) (x : T) (dof : T) (lf : bool),
  NaNv x \/ NaNv dof \/ negative dof ->
  is_nan (pt x dof lf) = true.
Proof. intros; unfold pt; nan_tac. Qed.

Lemma qt_nan : forall (T : Type) (N : Num T) (L : NumLaws T) (p : T) (dof : T),
  not_prob p \/ NaNv dof \/ negative dof ->
  is_nan (qt p dof) = true.
Proof. intros; unfold qt; nan_tac. Qed.

Lemma dunif_nan : forall (T : Type) (N : Num T) (L : NumLaws T) (x : T) (a : T) (b : T) (lf : bool),
  NaNv x \/ NaNv a \/ NaNv b \/ leb b a = true ->
  is_nan (dunif x a b lf) = true.
Proof. intros; unfold dunif; nan_tac. Qed.

Lemma punif_nan : forall (T : Type) (N : Num T) (L : NumLaws T) (x : T) (a : T) (b : T) (lf : bool),
  NaNv x \/ NaNv a \/ NaNv b \/ leb b a = true ->
  is_nan (punif x a b lf) = true.
Proof. intros; unfold punif; nan_tac. Qed.

Lemma qunif_nan : forall (T : Type) (N : Num T) (L : NumLaws T) (p : T) (a : T) (b : T),
  not_prob p \/ NaNv a \/ NaNv b \/ leb b a = true ->
  is_nan (qunif p a b) = true.
Proof. intros; unfold qunif; nan_tac. Qed.

Lemma dweibull_nan : forall (T : Type) (N : Num T) (L : NumLaws T) (x : T) (shape : T) (scale : T) (lf : bool),
  NaNv x \/ NaNv shape \/ NaNv scale \/ negative shape \/ negative scale ->
  is_nan (dweibull x shape scale lf) = true.
Proof. intros; unfold dweibull; nan_tac. Qed.

Lemma pweibull_nan : forall (T : Type) (N : Num T) (L : NumLaws T) (x : T) (shape : T) (scale : T) (lf : bool),
  NaNv x \/ NaNv shape \/ NaNv scale \/ negative shape \/ negative scale ->
  is_nan (pweibull x shape scale lf) = true.
Proof. intros; unfold pweibull; nan_tac. Qed.

Lemma qweibull_nan : forall (T : Type) (N : Num T) (L : NumLaws T) (p : T) (shape : T) (scale : T),
  not_prob p \/ NaNv shape \/ NaNv scale \/ negative shape \/ negative scale ->
  is_nan (qweibull p shape scale) = true.
Proof. intros; unfold qweibull; nan_tac. Qed.

Lemma dbern_nan : forall (T : Type) (N : Num T) (L : NumLaws T) (x : Z) (prob : T) (lf : bool),
  not_prob prob ->
  is_nan (dbern x prob lf) = true.
Proof. intros; unfold dbern; nan_tac. Qed.

Lemma pbern_nan : forall (T : Type) (N : Num T) (L : NumLaws T) (x : Z) (prob : T) (lf : bool),
  not_prob prob ->
  is_nan (pbern x prob lf) = true.
Proof. intros; unfold pbern; nan_tac. Qed.

Lemma qbern_nan : forall (T : Type) (N : Num T) (L : NumLaws T) (p : T) (prob : T),
  not_prob p \/ not_prob prob ->
  is_nan (qbern p prob) = true.
Proof. intros; unfold qbern; nan_tac. Qed.

Lemma dradem_nan : forall (T : Type) (N : Num T) (L : NumLaws T) (x : Z) (prob : T) (lf : bool),
  not_prob prob ->
  is_nan (dradem x prob lf) = true.
Proof. intros; unfold dradem; nan_tac. Qed.

Lemma pradem_nan : forall (T : Type) (N : Num T) (L : NumLaws T) (x : Z) (prob : T) (lf : bool),
  not_prob prob ->
  is_nan (pradem x prob lf) = true.
Proof. intros; unfold pradem; nan_tac. Qed.

Lemma qradem_nan : forall (T : Type) (N : Num T) (L : NumLaws T) (p : T) (prob : T),
  not_prob p \/ not_prob prob ->
  is_nan (qradem p prob) = true.
Proof. intros; unfold qradem; nan_tac. Qed.

Lemma dbinom_nan : forall (T : Type) (N : Num T) (L : NumLaws T) (x : Z) (n : Z) (prob : T) (lf : bool),
  (n < 0)%Z \/ not_prob prob ->
  is_nan (dbinom x n prob lf) = true.
Proof. intros; unfold dbinom; nan_tac. Qed.

Lemma dpois_nan : forall (T : Type) (N : Num T) (L : NumLaws T) (x : Z) (rate : T) (lf : bool),
  NaNv rate \/ negative rate ->
  is_nan (dpois x rate lf) = true.
Proof. intros; unfold dpois; nan_tac. Qed.

Lemma pbinom_nan : forall (T : Type) (N : Num T) (L : NumLaws T) (x : Z) (n : Z) (prob : T) (lf : bool),
  (n < 0)%Z \/ not_prob prob ->
  is_nan (pbinom x n prob lf) = true.
Proof. intros; unfold pbinom; nan_tac. Qed.

Lemma ppois_nan : forall (T : Type) (N : Num T) (L : NumLaws T) (x : Z) (rate : T) (lf : bool),
  NaNv rate \/ negative rate ->
  is_nan (ppois x rate lf) = true.
Proof. intros; unfold ppois; nan_tac. Qed.

Lemma qbinom_nan : forall (T : Type) (N : Num T) (L : NumLaws T) (p : T) (n : Z) (prob : T),
  not_prob p \/ (n < 0)%Z \/ not_prob prob ->
  is_nan (qbinom p n prob) = true.
Proof. intros; unfold qbinom, qbinom_run; nan_tac. Qed.

Lemma qpois_nan : forall (T : Type) (N : Num T) (L : NumLaws T) (trunc : T -> option Z) (fuel : nat) (p rate : T),
  not_prob p \/ NaNv rate \/ negative rate ->
  qpois_run trunc fuel p rate = Some nan /\ is_nan (nan : T) = true.
Proof. intros; split; [|apply is_nan_nan]; unfold qpois_run; revert H; nan_core. Qed.

Ltac nan_tac2 := first
  [ apply pnorm_nan | apply dnorm_nan | apply dunif_nan | apply qnorm_nan ]; auto.

Lemma dnorm_std_nan : forall (T : Type) (N : Num T) (L : NumLaws T) (x : T) (lf : bool),
  NaNv x ->
  is_nan (dnorm_std x lf) = true.
Proof. intros; unfold dnorm_std; nan_tac2. Qed.

Lemma pnorm_std_nan : forall (T : Type) (N : Num T) (L : NumLaws T) (x : T) (lf : bool),
  NaNv x ->
  is_nan (pnorm_std x lf) = true.
Proof. intros; unfold pnorm_std; nan_tac2. Qed.

Lemma dunif_std_nan : forall (T : Type) (N : Num T) (L : NumLaws T) (x : T),
  NaNv x ->
  is_nan (dunif_std x) = true.
Proof. intros; unfold dunif_std; nan_tac2. Qed.

Lemma qnorm_std_nan : forall (T : Type) (N : Num T) (L : NumLaws T) (p : T),
  not_prob p ->
  is_nan (qnorm_std p) = true.
Proof. intros; unfold qnorm_std; nan_tac2. Qed.
