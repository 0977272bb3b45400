(** Densities are NaN or in [0,+inf], for all arguments (C07). *)
From Coq Require Import Reals ZArith QArith Bool Lra Lia Psatz.
From Verif Require Import Num Sanity ER ERTac Prob Dens Quant Spec SpecER ClosedElem LogForm Support.
Local Open Scope R_scope.

Lemma nn_exp v : nan_or_nonneg (eexp v).
Proof.
  destruct v as [| | |v]; cbn; [left; auto|right; reflexivity|right..]; apply Ele_Fin; [lra|].
  left; apply exp_pos.
Qed.
Lemma nn_nan : nan_or_nonneg NaN. Proof. left; auto. Qed.
Lemma nn_pinf : nan_or_nonneg PInf. Proof. right; reflexivity. Qed.
Lemma nn_fin r : 0 <= r -> nan_or_nonneg (Fin r).
Proof. intros. right. now apply Ele_Fin. Qed.
Lemma nn_mul u v : nan_or_nonneg u -> nan_or_nonneg v -> nan_or_nonneg (emul u v).
Proof.
  intros [->|Hu]; [intros _; left; destruct v; auto|].
  intros [->|Hv]; [left; destruct u; auto|].
  destruct u as [| | |u], v as [| | |v]; try discriminate; cbn [emul]; try apply nn_pinf.
  - apply Ele_Fin in Hv. unfold scale_inf. destruct (Rlt_dec 0 v); [apply nn_pinf|].
    destruct (Rlt_dec v 0); [lra|apply nn_nan].
  - apply Ele_Fin in Hu. unfold scale_inf. destruct (Rlt_dec 0 u); [apply nn_pinf|].
    destruct (Rlt_dec u 0); [lra|apply nn_nan].
  - apply Ele_Fin in Hu, Hv. apply nn_fin. now apply Rmult_le_pos.
Qed.
Lemma nn_div u v : nan_or_nonneg u -> nan_or_nonneg v -> nan_or_nonneg (ediv u v).
Proof.
  intros [->|Hu]; [intros _; left; destruct v; auto|].
  intros [->|Hv]; [left; destruct u; auto|].
  destruct u as [| | |u], v as [| | |v]; try discriminate; cbn [ediv];
  try apply nn_nan; try (apply nn_fin; lra).
  - apply Ele_Fin in Hv. destruct (Rlt_dec v 0); [lra|apply nn_pinf].
  - apply Ele_Fin in Hu, Hv. destruct (Req_EM_T v 0).
    + unfold scale_inf. destruct (Rlt_dec 0 u); [apply nn_pinf|].
      destruct (Rlt_dec u 0); [lra|apply nn_nan].
    + apply nn_fin. apply Rmult_le_pos; auto. left. apply Rinv_0_lt_compat. lra.
Qed.
Lemma nn_add u v : nan_or_nonneg u -> nan_or_nonneg v -> nan_or_nonneg (eadd u v).
Proof.
  intros [->|Hu]; [intros _; left; destruct v; auto|].
  intros [->|Hv]; [left; destruct u; auto|].
  destruct u as [| | |u], v as [| | |v]; try discriminate; cbn [eadd]; try apply nn_pinf.
  apply Ele_Fin in Hu, Hv. apply nn_fin. lra.
Qed.
Lemma nn_sq u : nan_or_nonneg (emul u u).
Proof.
  destruct u as [| | |u]; cbn; try apply nn_nan; try apply nn_pinf. apply nn_fin. nra.
Qed.

Ltac nn_atom := first
  [ apply nn_exp | apply nn_nan | apply nn_pinf | apply nn_fin; lra | assumption ].
Ltac nn_go :=
  cbv beta iota delta [log_if log_zero_if log_one_if exp_if negb log exp ofZ neg pinf nan lit elit
                       Qnum Qden div sub ER_Num eneg];
  repeat match goal with |- context [if ?b then _ else _] => destruct b eqn:? end;
  try nn_atom.

Lemma nn_of_nlt v c : 0 <= c -> eltb v (Fin c) = false -> nan_or_nonneg v.
Proof.
  destruct v as [| | |v]; cbn; intros Hc H; try discriminate; [left; auto|right; reflexivity|].
  apply Rltb_false in H. apply nn_fin. lra.
Qed.
Ltac split_sanity H :=
  cbn in H; repeat match type of H with context [if ?b then _ else _] =>
    let E := fresh in destruct b eqn:E; try discriminate H end.

Section S.
Variable S : SF.
Notation NS := (ER_Num S).
Notation eps := (sf_eps S).

Lemma dnorm_nn x mu s : nan_or_nonneg (dnorm (N:=NS) x mu s false).
Proof. unfold dnorm, dnorm_limit_vals. nn_go. Qed.
Lemma dlaplace_nn x mu s : nan_or_nonneg (dlaplace (N:=NS) x mu s false).
Proof. unfold dlaplace, dlaplace_limit_vals. nn_go. Qed.
Lemma dlogis_nn x mu s : nan_or_nonneg (dlogis (N:=NS) x mu s false).
Proof. unfold dlogis, dlogis_limit_vals. nn_go. Qed.
Lemma dbeta_nn x a b : nan_or_nonneg (dbeta (N:=NS) x a b false).
Proof.
  unfold dbeta, dbeta_limit_vals. nn_go.
  - apply (nn_of_nlt _ 0); [lra|]. clear - Heqb0. destruct (beta_sanity3 x a b) eqn:E; [|discriminate].
    unfold beta_sanity3, beta_sanity2 in E. apply andb_prop in E. destruct E as [_ E]. split_sanity E. auto.
  - apply (nn_of_nlt _ 0); [lra|]. clear - Heqb0. destruct (beta_sanity3 x a b) eqn:E; [|discriminate].
    unfold beta_sanity3, beta_sanity2 in E. apply andb_prop in E. destruct E as [_ E]. split_sanity E. auto.
Qed.
Lemma dchisq_nn x k : nan_or_nonneg (dchisq (N:=NS) x k false).
Proof. unfold dchisq, dchisq_limit_vals. nn_go. Qed.
Lemma dexp_nn x r : nan_or_nonneg (dexp (N:=NS) x r false).
Proof. unfold dexp. nn_go. Qed.
Lemma dgamma_nn x k th : 0 < eps -> nan_or_nonneg (dgamma (N:=NS) x k th false).
Proof.
  intros He. unfold dgamma, dgamma_limit_vals. nn_go.
  apply nn_div; [nn_atom|].
  apply (nn_of_nlt _ eps); [lra|]. clear - Heqb. destruct (gamma_sanity3 x k th) eqn:E; [|discriminate].
  unfold gamma_sanity3, gamma_sanity2 in E. apply andb_prop in E. destruct E as [_ E]. split_sanity E. auto.
Qed.
Lemma dinvgamma_nn x k r : nan_or_nonneg (dinvgamma (N:=NS) x k r false).
Proof. unfold dinvgamma, dinvgamma_limit_vals. nn_go. Qed.
Lemma dinvgauss_nn x mu l : nan_or_nonneg (dinvgauss (N:=NS) x mu l false).
Proof. unfold dinvgauss, dinvgauss_limit_vals. nn_go. Qed.
Lemma dpois_nn x r : nan_or_nonneg (dpois (N:=NS) x r false).
Proof. unfold dpois. nn_go. Qed.
Lemma dt_nn x d : nan_or_nonneg (dt (N:=NS) x d false).
Proof. unfold dt. nn_go. apply dnorm_nn. Qed.
Lemma dweibull_nn x k th : nan_or_nonneg (dweibull (N:=NS) x k th false).
Proof. unfold dweibull. nn_go. Qed.
Lemma prob_cases p : bern_sanity (N:=NS) p = true -> exists r, p = Fin r /\ 0 <= r <= 1.
Proof.
  unfold bern_sanity. destruct p as [| | |r]; cbn; try discriminate.
  intros H. exists r. split; auto.
  destruct (Rltb r 0) eqn:E1; [discriminate|]. destruct (Rltb 1 r) eqn:E2; [discriminate|].
  apply Rltb_false in E1, E2. lra.
Qed.
Lemma dbern_nn x p : nan_or_nonneg (dbern (N:=NS) x p false).
Proof.
  unfold dbern. destruct (bern_sanity p) eqn:E; [|apply nn_nan].
  apply prob_cases in E. destruct E as (r & -> & Hr). unfold dbern_compute. nn_go.
Qed.
Lemma dradem_nn x p : nan_or_nonneg (dradem (N:=NS) x p false).
Proof.
  unfold dradem. destruct (radem_sanity p) eqn:E; [|apply nn_nan].
  change radem_sanity with (@bern_sanity ER NS) in E.
  apply prob_cases in E. destruct E as (r & -> & Hr). unfold dradem_compute. nn_go.
Qed.
Lemma dbinom_nn x n p : nan_or_nonneg (dbinom (N:=NS) x n p false).
Proof. unfold dbinom, dbinom_limit_vals. nn_go. apply dbern_nn. Qed.
Lemma dunif_nn x lo hi : nan_or_nonneg (dunif (N:=NS) x lo hi false).
Proof.
  unfold dunif. nn_go. unfold dunif_log_check.
  destruct lo as [| | |lo], hi as [| | |hi]; cbn in Heqb0; try discriminate;
    try (destruct x; cbn in Heqb; discriminate).
  assert (lo < hi).
  { destruct (Rleb hi lo) eqn:E; [|now apply Rleb_false in E].
    destruct x; cbn in *; rewrite ?E in *; discriminate. }
  un_cls. er_arith. apply nn_fin. left. apply Rdiv_lt_0_compat; lra.
Qed.
Lemma dcauchy_nn x mu s : nan_or_nonneg (dcauchy (N:=NS) x mu s false).
Proof.
  unfold dcauchy, dcauchy_limit_vals, dcauchy_compute. nn_go.
  un_cls. apply nn_div; [nn_atom|]. apply nn_mul.
  - apply nn_mul; [|apply nn_fin; pose proof PI_RGT_0; lra].
    destruct s as [| | |s]; try nn_atom.
    + destruct x, mu; cbn in *; discriminate.
    + apply nn_fin. destruct x, mu; cbn in *; try discriminate;
      destruct (Rltb s 0) eqn:E; try discriminate; now apply Rltb_false in E.
  - apply nn_add; [nn_atom|apply nn_sq].
Qed.
Lemma dlnorm_nn x mu s : nan_or_nonneg (dlnorm (N:=NS) x mu s false).
Proof.
  unfold dlnorm, dlnorm_limit_vals. nn_go. unfold dlnorm_log_check. cbn [div ER_Num].
  apply nn_div; [apply dnorm_nn|]. destruct x as [| | |x]; cbn in *; try discriminate; try nn_atom.
  apply nn_fin. apply Rltb_false in Heqb0. auto.
Qed.
Lemma df_nn x d1 d2 : 0 < eps -> nan_or_nonneg (df (N:=NS) x d1 d2 false).
Proof.
  intros He. unfold df, df_limit_vals_x0, df_limit_vals_xinf, df_limit_vals_dof. nn_go.
  { apply dinvgamma_nn. } { now apply dgamma_nn. }
  destruct d1 as [| | |d1], d2 as [| | |d2]; try discriminate;
    try (destruct x; cbn in Heqb; discriminate);
    try (destruct x; cbn in Heqb; destruct Rltb in Heqb; discriminate).
  assert (eps <= d1).
  { destruct (Rltb d1 eps) eqn:E; [|now apply Rltb_false in E].
    destruct x; cbn in *; rewrite ?E in *; discriminate. }
  assert (eps <= d2).
  { destruct (Rltb d2 eps) eqn:E; [|now apply Rltb_false in E].
    destruct x; cbn in *; rewrite ?E in *; try discriminate; destruct Rltb; discriminate. }
  destruct x as [| | |x]; try (cbn in *; discriminate).
  assert (0 < x). { cbn in Heqb0, Heqb1. apply Rltb_false in Heqb0. apply Reqb_false in Heqb1. lra. }
  pose proof (f_arg_range x d1 d2 ltac:(lra) ltac:(lra) ltac:(lra)) as [Hr _].
  unfold df_log_check, df_compute_adj. un_cls. er_arith. refold S.
  apply nn_mul; [apply dbeta_nn|]. apply nn_fin.
  replace (d1 / 2 / (d2 / 2)) with (d1 / d2) by (field; lra).
  left. apply df_adj_pos; lra.
Qed.
End S.
