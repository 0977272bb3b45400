(** C01: invalid arguments give NaN from every density and CDF, in any arithmetic
    satisfying [NumLaws]; [Laws.ER_Laws] and [Laws.B64_Laws] are the instances. *)
From Coq Require Import ZArith QArith Bool.
From Coq Require Import Reals Lra.
From Flocq Require Import IEEE754.BinarySingleNaN.
From Verif Require Import ER ERTac B64.
From Verif Require Import Num Sanity Prob Dens Quant Laws NanSpec NanPolicy.

Theorem C01_dnorm : forall (T : Type) (N : Num T) (L : NumLaws T) (x : T) (mu : T) (sigma : T) (lf : bool),
  NaNv x \/ NaNv mu \/ NaNv sigma \/ negative sigma ->
  is_nan (dnorm x mu sigma lf) = true.
Proof. exact dnorm_nan. Qed.
Print Assumptions C01_dnorm.

Theorem C01_pnorm : forall (T : Type) (N : Num T) (L : NumLaws T) (x : T) (mu : T) (sigma : T) (lf : bool),
  NaNv x \/ NaNv mu \/ NaNv sigma \/ negative sigma ->
  is_nan (pnorm x mu sigma lf) = true.
Proof. exact pnorm_nan. Qed.
Print Assumptions C01_pnorm.

Theorem C01_dcauchy : forall (T : Type) (N : Num T) (L : NumLaws T) (x : T) (mu : T) (sigma : T) (lf : bool),
  NaNv x \/ NaNv mu \/ NaNv sigma \/ negative sigma ->
  is_nan (dcauchy x mu sigma lf) = true.
Proof. exact dcauchy_nan. Qed.
Print Assumptions C01_dcauchy.

Theorem C01_pcauchy : forall (T : Type) (N : Num T) (L : NumLaws T) (x : T) (mu : T) (sigma : T) (lf : bool),
  NaNv x \/ NaNv mu \/ NaNv sigma \/ negative sigma ->
  is_nan (pcauchy x mu sigma lf) = true.
Proof. exact pcauchy_nan. Qed.
Print Assumptions C01_pcauchy.

Theorem C01_dlaplace : forall (T : Type) (N : Num T) (L : NumLaws T) (x : T) (mu : T) (sigma : T) (lf : bool),
  NaNv x \/ NaNv mu \/ NaNv sigma \/ negative sigma ->
  is_nan (dlaplace x mu sigma lf) = true.
Proof. exact dlaplace_nan. Qed.
Print Assumptions C01_dlaplace.

Theorem C01_plaplace : forall (T : Type) (N : Num T) (L : NumLaws T) (x : T) (mu : T) (sigma : T) (lf : bool),
  NaNv x \/ NaNv mu \/ NaNv sigma \/ negative sigma ->
  is_nan (plaplace x mu sigma lf) = true.
Proof. exact plaplace_nan. Qed.
Print Assumptions C01_plaplace.

Theorem C01_dlogis : forall (T : Type) (N : Num T) (L : NumLaws T) (x : T) (mu : T) (sigma : T) (lf : bool),
  NaNv x \/ NaNv mu \/ NaNv sigma \/ negative sigma ->
  is_nan (dlogis x mu sigma lf) = true.
Proof. exact dlogis_nan. Qed.
Print Assumptions C01_dlogis.

Theorem C01_plogis : forall (T : Type) (N : Num T) (L : NumLaws T) (x : T) (mu : T) (sigma : T) (lf : bool),
  NaNv x \/ NaNv mu \/ NaNv sigma \/ negative sigma ->
  is_nan (plogis x mu sigma lf) = true.
Proof. exact plogis_nan. Qed.
Print Assumptions C01_plogis.

Theorem C01_dlnorm : forall (T : Type) (N : Num T) (L : NumLaws T) (x : T) (mu : T) (sigma : T) (lf : bool),
  NaNv x \/ NaNv mu \/ NaNv sigma \/ negative sigma ->
  is_nan (dlnorm x mu sigma lf) = true.
Proof. exact dlnorm_nan. Qed.
Print Assumptions C01_dlnorm.

Theorem C01_plnorm : forall (T : Type) (N : Num T) (L : NumLaws T) (x : T) (mu : T) (sigma : T) (lf : bool),
  NaNv x \/ NaNv mu \/ NaNv sigma \/ negative sigma ->
  is_nan (plnorm x mu sigma lf) = true.
Proof. exact plnorm_nan. Qed.
Print Assumptions C01_plnorm.

Theorem C01_dbeta : forall (T : Type) (N : Num T) (L : NumLaws T) (x : T) (a : T) (b : T) (lf : bool),
  NaNv x \/ NaNv a \/ NaNv b \/ negative a \/ negative b ->
  is_nan (dbeta x a b lf) = true.
Proof. exact dbeta_nan. Qed.
Print Assumptions C01_dbeta.

Theorem C01_pbeta : forall (T : Type) (N : Num T) (L : NumLaws T) (x : T) (a : T) (b : T) (lf : bool),
  NaNv x \/ NaNv a \/ NaNv b \/ negative a \/ negative b ->
  is_nan (pbeta x a b lf) = true.
Proof. exact pbeta_nan. Qed.
Print Assumptions C01_pbeta.

Theorem C01_dchisq : forall (T : Type) (N : Num T) (L : NumLaws T) (x : T) (dof : T) (lf : bool),
  NaNv x \/ NaNv dof \/ negative dof ->
  is_nan (dchisq x dof lf) = true.
Proof. exact dchisq_nan. Qed.
Print Assumptions C01_dchisq.

Theorem C01_pchisq : forall (T : Type) (N : Num T) (L : NumLaws T) (x : T) (dof : T) (lf : bool),
  NaNv x \/ NaNv dof \/ negative dof ->
  is_nan (pchisq x dof lf) = true.
Proof. exact pchisq_nan. Qed.
Print Assumptions C01_pchisq.

Theorem C01_dexp : forall (T : Type) (N : Num T) (L : NumLaws T) (x : T) (rate : T) (lf : bool),
  NaNv x \/ NaNv rate \/ negative rate ->
  is_nan (dexp x rate lf) = true.
Proof. exact dexp_nan. Qed.
Print Assumptions C01_dexp.

Theorem C01_pexp : forall (T : Type) (N : Num T) (L : NumLaws T) (x : T) (rate : T) (lf : bool),
  NaNv x \/ NaNv rate \/ negative rate ->
  is_nan (pexp x rate lf) = true.
Proof. exact pexp_nan. Qed.
Print Assumptions C01_pexp.

Theorem C01_df : forall (T : Type) (N : Num T) (L : NumLaws T) (x : T) (df1 : T) (df2 : T) (lf : bool),
  NaNv x \/ NaNv df1 \/ NaNv df2 \/ negative df1 \/ negative df2 ->
  is_nan (df x df1 df2 lf) = true.
Proof. exact df_nan. Qed.
Print Assumptions C01_df.

Theorem C01_pf : forall (T : Type) (N : Num T) (L : NumLaws T) (x : T) (df1 : T) (df2 : T) (lf : bool),
  NaNv x \/ NaNv df1 \/ NaNv df2 \/ negative df1 \/ negative df2 ->
  is_nan (pf x df1 df2 lf) = true.
Proof. exact pf_nan. Qed.
Print Assumptions C01_pf.

Theorem C01_dgamma : forall (T : Type) (N : Num T) (L : NumLaws T) (x : T) (shape : T) (scale : T) (lf : bool),
  NaNv x \/ NaNv shape \/ NaNv scale \/ negative shape \/ negative scale ->
  is_nan (dgamma x shape scale lf) = true.
Proof. exact dgamma_nan. Qed.
Print Assumptions C01_dgamma.

Theorem C01_pgamma : forall (T : Type) (N : Num T) (L : NumLaws T) (x : T) (shape : T) (scale : T) (lf : bool),
  NaNv x \/ NaNv shape \/ NaNv scale \/ negative shape \/ negative scale ->
  is_nan (pgamma x shape scale lf) = true.
Proof. exact pgamma_nan. Qed.
Print Assumptions C01_pgamma.

Theorem C01_dinvgamma : forall (T : Type) (N : Num T) (L : NumLaws T) (x : T) (shape : T) (rate : T) (lf : bool),
  NaNv x \/ NaNv shape \/ NaNv rate \/ negative shape \/ negative rate ->
  is_nan (dinvgamma x shape rate lf) = true.
Proof. exact dinvgamma_nan. Qed.
Print Assumptions C01_dinvgamma.

Theorem C01_pinvgamma : forall (T : Type) (N : Num T) (L : NumLaws T) (x : T) (shape : T) (rate : T) (lf : bool),
  NaNv x \/ NaNv shape \/ NaNv rate \/ negative shape \/ negative rate ->
  is_nan (pinvgamma x shape rate lf) = true.
Proof. exact pinvgamma_nan. Qed.
Print Assumptions C01_pinvgamma.

Theorem C01_dinvgauss : forall (T : Type) (N : Num T) (L : NumLaws T) (x : T) (mu : T) (lambda : T) (lf : bool),
  NaNv x \/ NaNv mu \/ NaNv lambda \/ negative mu \/ negative lambda ->
  is_nan (dinvgauss x mu lambda lf) = true.
Proof. exact dinvgauss_nan. Qed.
Print Assumptions C01_dinvgauss.

Theorem C01_pinvgauss : forall (T : Type) (N : Num T) (L : NumLaws T) (x : T) (mu : T) (lambda : T) (lf : bool),
  NaNv x \/ NaNv mu \/ NaNv lambda \/ negative mu \/ negative lambda ->
  is_nan (pinvgauss x mu lambda lf) = true.
Proof. exact pinvgauss_nan. Qed.
Print Assumptions C01_pinvgauss.

Theorem C01_dt : forall (T : Type) (N : Num T) (L : NumLaws T) (x : T) (dof : T) (lf : bool),
  NaNv x \/ NaNv dof \/ negative dof ->
  is_nan (dt x dof lf) = true.
Proof. exact dt_nan. Qed.
Print Assumptions C01_dt.

Theorem C01_pt : forall (T : Type) (N : Num T) (L : NumLaws T) (x : T) (dof : T) (lf : bool),
  NaNv x \/ NaNv dof \/ negative dof ->
  is_nan (pt x dof lf) = true.
Proof. exact pt_nan. Qed.
Print Assumptions C01_pt.

Theorem C01_dunif : forall (T : Type) (N : Num T) (L : NumLaws T) (x : T) (a : T) (b : T) (lf : bool),
  NaNv x \/ NaNv a \/ NaNv b \/ leb b a = true ->
  is_nan (dunif x a b lf) = true.
Proof. exact dunif_nan. Qed.
Print Assumptions C01_dunif.

Theorem C01_punif : forall (T : Type) (N : Num T) (L : NumLaws T) (x : T) (a : T) (b : T) (lf : bool),
  NaNv x \/ NaNv a \/ NaNv b \/ leb b a = true ->
  is_nan (punif x a b lf) = true.
Proof. exact punif_nan. Qed.
Print Assumptions C01_punif.

Theorem C01_dweibull : forall (T : Type) (N : Num T) (L : NumLaws T) (x : T) (shape : T) (scale : T) (lf : bool),
  NaNv x \/ NaNv shape \/ NaNv scale \/ negative shape \/ negative scale ->
  is_nan (dweibull x shape scale lf) = true.
Proof. exact dweibull_nan. Qed.
Print Assumptions C01_dweibull.

Theorem C01_pweibull : forall (T : Type) (N : Num T) (L : NumLaws T) (x : T) (shape : T) (scale : T) (lf : bool),
  NaNv x \/ NaNv shape \/ NaNv scale \/ negative shape \/ negative scale ->
  is_nan (pweibull x shape scale lf) = true.
Proof. exact pweibull_nan. Qed.
Print Assumptions C01_pweibull.

Theorem C01_dbern : forall (T : Type) (N : Num T) (L : NumLaws T) (x : Z) (prob : T) (lf : bool),
  not_prob prob ->
  is_nan (dbern x prob lf) = true.
Proof. exact dbern_nan. Qed.
Print Assumptions C01_dbern.

Theorem C01_pbern : forall (T : Type) (N : Num T) (L : NumLaws T) (x : Z) (prob : T) (lf : bool),
  not_prob prob ->
  is_nan (pbern x prob lf) = true.
Proof. exact pbern_nan. Qed.
Print Assumptions C01_pbern.

Theorem C01_dradem : forall (T : Type) (N : Num T) (L : NumLaws T) (x : Z) (prob : T) (lf : bool),
  not_prob prob ->
  is_nan (dradem x prob lf) = true.
Proof. exact dradem_nan. Qed.
Print Assumptions C01_dradem.

Theorem C01_pradem : forall (T : Type) (N : Num T) (L : NumLaws T) (x : Z) (prob : T) (lf : bool),
  not_prob prob ->
  is_nan (pradem x prob lf) = true.
Proof. exact pradem_nan. Qed.
Print Assumptions C01_pradem.

Theorem C01_dbinom : forall (T : Type) (N : Num T) (L : NumLaws T) (x : Z) (n : Z) (prob : T) (lf : bool),
  (n < 0)%Z \/ not_prob prob ->
  is_nan (dbinom x n prob lf) = true.
Proof. exact dbinom_nan. Qed.
Print Assumptions C01_dbinom.

Theorem C01_dpois : forall (T : Type) (N : Num T) (L : NumLaws T) (x : Z) (rate : T) (lf : bool),
  NaNv rate \/ negative rate ->
  is_nan (dpois x rate lf) = true.
Proof. exact dpois_nan. Qed.
Print Assumptions C01_dpois.

Theorem C01_pbinom : forall (T : Type) (N : Num T) (L : NumLaws T) (x : Z) (n : Z) (prob : T) (lf : bool),
  (n < 0)%Z \/ not_prob prob ->
  is_nan (pbinom x n prob lf) = true.
Proof. exact pbinom_nan. Qed.
Print Assumptions C01_pbinom.

Theorem C01_ppois : forall (T : Type) (N : Num T) (L : NumLaws T) (x : Z) (rate : T) (lf : bool),
  NaNv rate \/ negative rate ->
  is_nan (ppois x rate lf) = true.
Proof. exact ppois_nan. Qed.
Print Assumptions C01_ppois.

Theorem C01_dnorm_std : forall (T : Type) (N : Num T) (L : NumLaws T) (x : T) (lf : bool),
  NaNv x ->
  is_nan (dnorm_std x lf) = true.
Proof. exact dnorm_std_nan. Qed.
Print Assumptions C01_dnorm_std.

Theorem C01_pnorm_std : forall (T : Type) (N : Num T) (L : NumLaws T) (x : T) (lf : bool),
  NaNv x ->
  is_nan (pnorm_std x lf) = true.
Proof. exact pnorm_std_nan. Qed.
Print Assumptions C01_pnorm_std.

Theorem C01_dunif_std : forall (T : Type) (N : Num T) (L : NumLaws T) (x : T),
  NaNv x ->
  is_nan (dunif_std x) = true.
Proof. exact dunif_std_nan. Qed.
Print Assumptions C01_dunif_std.

(** Cases that meet the hypotheses, in both arithmetics. *)
Example C01_case_b64 (F : TF) : let N := B64_Num F in
  NumLaws b64 /\ negative (bofZ (-1)) /\ not_prob (bofZ 2) /\ not_prob (bofZ (-1))
  /\ leb (bofZ 1) (bofZ 1) = true /\ NaNv (Bdiv mode_NE (bofZ 0) (bofZ 0)).
Proof.
  split; [apply B64_Laws|]. unfold negative, not_prob, NaNv. cbn -[bofZ]. vm_compute.
  repeat split; auto.
Qed.
Example C01_case_er (S : SF) : (0 <= sf_eps S)%R -> let N := ER_Num S in
  NumLaws ER /\ negative (Fin (-1)) /\ not_prob (Fin 2) /\ not_prob PInf
  /\ leb PInf PInf = true /\ NaNv (ediv PInf PInf).
Proof.
  split; [now apply ER_Laws|]. unfold negative, not_prob, NaNv. cbn.
  rewrite !Rltb_true. repeat split; auto; try lra.
Qed.
