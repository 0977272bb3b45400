(** log_form=true against log_form=false (C06), function by function. *)
From Coq Require Import Reals ZArith QArith Bool Lra Psatz.
From Verif Require Import Num Sanity ER ERTac Prob Dens Quant Spec SpecER ClosedElem.
Local Open Scope R_scope.

Ltac lf_step :=
  match goal with
  | |- context [if ?b then _ else _] => destruct b eqn:?
  end.
Ltac lf_solve :=
  cbv beta iota delta [log_if log_zero_if log_one_if exp_if negb log exp ofZ neg pinf nan ER_Num eneg];
  repeat (lf_step; cbv beta iota);
  rewrite ?elog_eexp, ?elog_0, ?elog_1; try reflexivity.

Section S.
Variable S : SF.
Notation NS := (ER_Num S).
Implicit Types p : ER.

Lemma dnorm_log (x : ER) mu sigma : dnorm (N:=NS) x mu sigma true = elog (dnorm (N:=NS) x mu sigma false).
Proof. unfold dnorm. lf_solve. Qed.
Lemma pnorm_log (x : ER) mu sigma : pnorm (N:=NS) x mu sigma true = elog (pnorm (N:=NS) x mu sigma false).
Proof. unfold pnorm. lf_solve. Qed.
Lemma dbern_log (x : Z) pr : dbern (N:=NS) x pr true = elog (dbern (N:=NS) x pr false).
Proof. unfold dbern. lf_solve. Qed.
Lemma pbern_log (x : Z) pr : pbern (N:=NS) x pr true = elog (pbern (N:=NS) x pr false).
Proof. unfold pbern. lf_solve. Qed.
Lemma dradem_log (x : Z) pr : dradem (N:=NS) x pr true = elog (dradem (N:=NS) x pr false).
Proof. unfold dradem. lf_solve. Qed.
Lemma pradem_log (x : Z) pr : pradem (N:=NS) x pr true = elog (pradem (N:=NS) x pr false).
Proof. unfold pradem. lf_solve. Qed.
Lemma dbeta_log (x : ER) a b : dbeta (N:=NS) x a b true = elog (dbeta (N:=NS) x a b false).
Proof. unfold dbeta. lf_solve. Qed.
Lemma pbeta_log (x : ER) a b : pbeta (N:=NS) x a b true = elog (pbeta (N:=NS) x a b false).
Proof. unfold pbeta. lf_solve. Qed.
Lemma dbinom_log (x : Z) n pr : dbinom (N:=NS) x n pr true = elog (dbinom (N:=NS) x n pr false).
Proof. unfold dbinom. rewrite dbern_log. lf_solve. Qed.
Lemma pbinom_log (x : Z) n pr : pbinom (N:=NS) x n pr true = elog (pbinom (N:=NS) x n pr false).
Proof.
  unfold pbinom. rewrite pbern_log.
  destruct (pbinom_recur (Z.to_nat x + 1) x n pr 0); lf_solve.
Qed.
Lemma dcauchy_log (x : ER) mu sigma : dcauchy (N:=NS) x mu sigma true = elog (dcauchy (N:=NS) x mu sigma false).
Proof. unfold dcauchy. lf_solve. Qed.
Lemma pcauchy_log (x : ER) mu sigma : pcauchy (N:=NS) x mu sigma true = elog (pcauchy (N:=NS) x mu sigma false).
Proof. unfold pcauchy. lf_solve. Qed.
Lemma dchisq_log (x : ER) dof : dchisq (N:=NS) x dof true = elog (dchisq (N:=NS) x dof false).
Proof. unfold dchisq. lf_solve. Qed.
Lemma pchisq_log (x : ER) dof : pchisq (N:=NS) x dof true = elog (pchisq (N:=NS) x dof false).
Proof. unfold pchisq. lf_solve. Qed.
Lemma dexp_log (x : ER) rate : x <> PInf -> dexp (N:=NS) x rate true = elog (dexp (N:=NS) x rate false).
Proof.
  intros H. unfold dexp. replace (is_posinf x) with false by (destruct x; auto; contradiction).
  lf_solve.
Qed.
Lemma pexp_log (x : ER) rate : pexp (N:=NS) x rate true = elog (pexp (N:=NS) x rate false).
Proof. unfold pexp. lf_solve. Qed.
Lemma dgamma_log (x : ER) k th : dgamma (N:=NS) x k th true = elog (dgamma (N:=NS) x k th false).
Proof. unfold dgamma. lf_solve. Qed.
Lemma pgamma_log (x : ER) k th : pgamma (N:=NS) x k th true = elog (pgamma (N:=NS) x k th false).
Proof. unfold pgamma. lf_solve. Qed.
Lemma dinvgamma_log (x : ER) k th : dinvgamma (N:=NS) x k th true = elog (dinvgamma (N:=NS) x k th false).
Proof. unfold dinvgamma. lf_solve. Qed.
Lemma pinvgamma_log (x : ER) k th : pinvgamma (N:=NS) x k th true = elog (pinvgamma (N:=NS) x k th false).
Proof. unfold pinvgamma, pinvgamma_limit_vals, pinvgamma_compute. lf_solve. Qed.
Lemma dinvgauss_log (x : ER) mu l : dinvgauss (N:=NS) x mu l true = elog (dinvgauss (N:=NS) x mu l false).
Proof. unfold dinvgauss. lf_solve. Qed.
Lemma pinvgauss_log (x : ER) mu l : pinvgauss (N:=NS) x mu l true = elog (pinvgauss (N:=NS) x mu l false).
Proof. unfold pinvgauss. lf_solve. Qed.
Lemma dlaplace_log (x : ER) mu sigma : dlaplace (N:=NS) x mu sigma true = elog (dlaplace (N:=NS) x mu sigma false).
Proof. unfold dlaplace. lf_solve. Qed.
Lemma plaplace_log (x : ER) mu sigma : plaplace (N:=NS) x mu sigma true = elog (plaplace (N:=NS) x mu sigma false).
Proof. unfold plaplace. lf_solve. Qed.
Lemma plnorm_log (x : ER) mu sigma : plnorm (N:=NS) x mu sigma true = elog (plnorm (N:=NS) x mu sigma false).
Proof. unfold plnorm. rewrite pnorm_log. lf_solve. Qed.
Lemma dlogis_log (x : ER) mu sigma : dlogis (N:=NS) x mu sigma true = elog (dlogis (N:=NS) x mu sigma false).
Proof. unfold dlogis. lf_solve. Qed.
Lemma plogis_log (x : ER) mu sigma : plogis (N:=NS) x mu sigma true = elog (plogis (N:=NS) x mu sigma false).
Proof. unfold plogis. lf_solve. Qed.
Lemma dpois_log (x : Z) rate : dpois (N:=NS) x rate true = elog (dpois (N:=NS) x rate false).
Proof. unfold dpois. lf_solve. Qed.
Lemma ppois_log (x : Z) rate : ppois (N:=NS) x rate true = elog (ppois (N:=NS) x rate false).
Proof. unfold ppois. lf_solve. Qed.
Lemma dt_log (x : ER) dof : dt (N:=NS) x dof true = elog (dt (N:=NS) x dof false).
Proof. unfold dt. rewrite dnorm_log. lf_solve. Qed.
Lemma pt_log (x : ER) dof : pt (N:=NS) x dof true = elog (pt (N:=NS) x dof false).
Proof. unfold pt. rewrite pnorm_log. lf_solve. Qed.
Lemma punif_log (x : ER) a b : punif (N:=NS) x a b true = elog (punif (N:=NS) x a b false).
Proof. unfold punif. lf_solve. Qed.
Lemma dweibull_log (x : ER) k th : dweibull (N:=NS) x k th true = elog (dweibull (N:=NS) x k th false).
Proof. unfold dweibull. lf_solve. Qed.
Lemma pweibull_log (x : ER) k th : pweibull (N:=NS) x k th true = elog (pweibull (N:=NS) x k th false).
Proof. unfold pweibull. lf_solve. Qed.

(** dlnorm subtracts [log x] instead of taking the logarithm of a quotient *)
Lemma dlnorm_log (x : ER) mu sigma : dlnorm (N:=NS) x mu sigma true = elog (dlnorm (N:=NS) x mu sigma false).
Proof.
  destruct x as [| | |x].
  1-3: unfold dlnorm; lf_solve; cbn in *; discriminate.
  destruct (Rlt_dec 0 x) as [Hx|Hx].
  2:{ unfold dlnorm. destruct (Req_dec x 0) as [->|Hx0].
      - cbn [log ER_Num]. rewrite elog_0. lf_solve; cbn in *; discriminate.
      - lf_solve. cbn in *. apply Rltb_false in Heqb0. exfalso; lra. }
  destruct mu as [| | |mu], sigma as [| | |sigma];
    try (unfold dlnorm; cbn [log ER_Num]; rewrite elog_F by auto; lf_solve; cbn in *;
         rewrite ?orb_true_r in *; discriminate).
  destruct (Rlt_dec 0 sigma) as [Hs|Hs].
  - rewrite !dlnorm_val by auto. reflexivity.
  - unfold dlnorm. cbn [log ER_Num]. rewrite elog_F by auto. lf_solve; cbn in *.
    exfalso. apply Reqb_false in Heqb1. destruct (Rltb sigma 0) eqn:E; [discriminate|].
    apply Rltb_false in E. lra.
Qed.

(** dunif: equal when both bounds are finite (infinite bounds return 0) *)
Lemma dunif_log (x : ER) (a b : R) :
  dunif (N:=NS) x (Fin a) (Fin b) true = elog (dunif (N:=NS) x (Fin a) (Fin b) false).
Proof.
  destruct (Rlt_dec a b) as [H|H].
  - destruct x as [| | |x]; try (unfold dunif; un_cls; cbn [eltb]; er_arith; rdecide;
      rewrite ?elog_0; reflexivity).
    destruct (Rlt_dec x a); [rewrite !dunif_out by lra; reflexivity|].
    destruct (Rlt_dec b x); [rewrite !dunif_out by lra; reflexivity|].
    rewrite !dunif_val by lra. reflexivity.
  - destruct x; unfold dunif; un_cls; er_arith; rdecide; reflexivity.
Qed.

(** a product with a positive factor *)
Lemma elog_mul_exp v c : 0 < c -> elog (emul (eexp v) (Fin c)) = eadd v (elog (Fin c)).
Proof.
  intros Hc. rewrite (elog_F c Hc). destruct v as [| | |v]; cbn [eexp eadd].
  - reflexivity.
  - cbn [emul]. unfold scale_inf. destruct Rlt_dec; auto; lra.
  - rewrite emul_F. rewrite Rmult_0_l. apply elog_0.
  - rewrite emul_F. pose proof (exp_pos v).
    rewrite elog_F by now apply Rmult_lt_0_compat.
    rewrite ln_mult by auto. now rewrite ln_exp.
Qed.
(** the change-of-variable factor of the F density *)
Lemma df_adj_pos (x a b : R) : 0 < x -> 0 < a -> 0 < b ->
  let r := a / b / (1 + a * x / b) in 0 < r * (1 - x * r).
Proof.
  intros Hx Ha Hb r.
  assert (0 < a / b) by now apply Rdiv_lt_0_compat.
  assert (0 < a * x / b) by (apply Rdiv_lt_0_compat; auto; now apply Rmult_lt_0_compat).
  assert (0 < r) by (apply Rdiv_lt_0_compat; auto; lra).
  assert (1 - x * r = / (1 + a * x / b)).
  { unfold r. field. repeat split; try lra.
    assert (0 < a * x) by now apply Rmult_lt_0_compat. lra. }
  rewrite H2. apply Rmult_lt_0_compat; auto. apply Rinv_0_lt_compat. lra.
Qed.
Lemma dbeta_inside (y a b : R) lf : 0 < a -> 0 < b -> 0 < y < 1 ->
  dbeta (N:=NS) (Fin y) (Fin a) (Fin b) lf
  = exp_if (N:=NS) (dbeta_log_compute (N:=NS) (Fin y) (Fin a) (Fin b)) (negb lf).
Proof. intros. unfold dbeta. un_cls. er_arith. rdecide. reflexivity. Qed.
Lemma f_arg_range x d1 d2 : 0 < x -> 0 < d1 -> 0 < d2 ->
  0 < d1 * x / d2 /\ 0 < d1 * x / d2 / (1 + d1 * x / d2) < 1.
Proof.
  intros. assert (0 < d1 * x / d2) by (apply Rdiv_lt_0_compat; auto; now apply Rmult_lt_0_compat).
  repeat split; auto.
  - apply Rdiv_lt_0_compat; lra.
  - apply (Rmult_lt_reg_r (1 + d1 * x / d2)); [lra|].
    unfold Rdiv at 1. rewrite Rmult_assoc, Rinv_l by lra. lra.
Qed.
(** the F density at finite arguments *)
Lemma df_inside x d1 d2 lf : 0 < x -> 0 < sf_eps S -> sf_eps S <= d1 -> sf_eps S <= d2 ->
  df (N:=NS) (Fin x) (Fin d1) (Fin d2) lf =
  let y := d1 * x / d2 / (1 + d1 * x / d2) in
  let r := d1 / d2 / (1 + d1 * x / d2) in
  if lf then eadd (dbeta (N:=NS) (Fin y) (Fin (d1 / 2)) (Fin (d2 / 2)) true) (elog (Fin (r * (1 - x * r))))
  else emul (dbeta (N:=NS) (Fin y) (Fin (d1 / 2)) (Fin (d2 / 2)) false) (Fin (r * (1 - x * r))).
Proof.
  intros. pose proof (f_arg_range x d1 d2 ltac:(lra) ltac:(lra) ltac:(lra)) as [Hr _].
  unfold df, df_log_check, df_compute_adj. un_cls. er_arith. rdecide.
  replace (d1 / 2 / (d2 / 2)) with (d1 / d2) by (field; lra). reflexivity.
Qed.
Lemma df_log (x : ER) d1 d2 : 0 < sf_eps S -> df (N:=NS) x d1 d2 true = elog (df (N:=NS) x d1 d2 false).
Proof.
  intros He.
  assert (G : forall x d1 d2, is_posinf (Num := NS) x = true \/ any_posinf2 (N := NS) d1 d2 = true \/
              ltb (Num := NS) x (Fin 0) = true \/ eqb (Num := NS) x (Fin 0) = true \/
              f_sanity3 (N := NS) x d1 d2 = false ->
              df (N:=NS) x d1 d2 true = elog (df (N:=NS) x d1 d2 false)).
  { intros x0 e1 e2 HH. unfold df, df_limit_vals_dof. rewrite dinvgamma_log, dgamma_log.
    change (ofZ (Num := NS) 0) with (Fin 0). lf_solve.
    exfalso. destruct HH as [HH|[HH|[HH|[HH|HH]]]].
    - discriminate (eq_trans (eq_sym HH) Heqb2).
    - discriminate (eq_trans (eq_sym HH) Heqb3).
    - discriminate (eq_trans (eq_sym HH) Heqb0).
    - discriminate (eq_trans (eq_sym HH) Heqb1).
    - assert (E : f_sanity3 (N := NS) x0 e1 e2 = true)
        by (clear - Heqb; destruct f_sanity3; [reflexivity|discriminate]).
      discriminate (eq_trans (eq_sym HH) E). }
  destruct x as [| | |x]; try (apply G; cbn; tauto).
  destruct (Rlt_dec 0 x) as [Hx|Hx].
  2:{ apply G. cbn. unfold Rltb, Reqb. destruct (Rlt_dec x 0), (Req_EM_T x 0); try tauto. lra. }
  destruct d1 as [| | |d1], d2 as [| | |d2]; try (apply G; cbn; tauto).
  { apply G; cbn. destruct (Rltb d1 (sf_eps S)); tauto. }
  destruct (Rle_dec (sf_eps S) d1). 2:{ apply G. cbn. do 4 right.
    rewrite (proj2 (Rltb_true d1 (sf_eps S))) by lra. auto. }
  destruct (Rle_dec (sf_eps S) d2). 2:{ apply G. cbn. do 4 right.
    rewrite (proj2 (Rltb_true d2 (sf_eps S))) by lra. destruct Rltb; auto. }
  rewrite !df_inside by lra.
  pose proof (f_arg_range x d1 d2 ltac:(lra) ltac:(lra) ltac:(lra)) as [_ Hr].
  cbv zeta. rewrite !dbeta_inside by lra. cbv beta iota delta [exp_if negb exp ER_Num].
  rewrite elog_mul_exp; auto. apply df_adj_pos; lra.
Qed.

(** pf: equal unless only the first dof is infinite *)
Lemma pf_log (x : ER) d1 d2 : d1 <> PInf \/ d2 = PInf ->
  pf (N:=NS) x d1 d2 true = elog (pf (N:=NS) x d1 d2 false).
Proof.
  intros H. unfold pf, pf_limit_vals_dof. rewrite pchisq_log. lf_solve.
  - exfalso; destruct d1, d2; cbn in *; try discriminate; destruct H; try discriminate; tauto.
  - apply pchisq_log.
Qed.
Lemma dnorm_std_log (x : ER) : dnorm_std (N:=NS) x true = elog (dnorm_std (N:=NS) x false).
Proof. apply pnorm_log. Qed.
Lemma pnorm_std_log (x : ER) : pnorm_std (N:=NS) x true = elog (pnorm_std (N:=NS) x false).
Proof. apply pnorm_log. Qed.

(** Counterexamples *)
Lemma dexp_log_bad rate : 0 < rate ->
  dexp (N:=NS) PInf (Fin rate) true = Fin 0 /\ elog (dexp (N:=NS) PInf (Fin rate) false) = MInf.
Proof. intros. unfold dexp. un_cls. cbn [eltb]. er_arith. rdecide. rewrite ?elog_0. auto. Qed.
Lemma dunif_log_bad x b :
  dunif (N:=NS) (Fin x) MInf (Fin b) true = Fin 0 /\
  elog (dunif (N:=NS) (Fin x) MInf (Fin b) false) = MInf.
Proof. unfold dunif. un_cls. cbn [eleb]. rewrite ?elog_0. auto. Qed.
End S.

(** pf with df1 = inf: log form returns [1 - log P] although the value is [1 - P].
    Where the chi-squared probability is strictly inside (0,1) the two differ. *)
Lemma pf_log_bad (S : SF) (x d2 c : R) :
  0 < sf_eps S -> sf_eps S <= x -> sf_eps S <= d2 -> sf_eps S <= d2 / x ->
  0 < c < 1 -> sf_incgamma S (Fin (d2 / 2)) (Fin (d2 / x / 2)) = Fin c ->
  pf (N:=ER_Num S) (Fin x) PInf (Fin d2) true = Fin (1 - ln c) /\
  elog (pf (N:=ER_Num S) (Fin x) PInf (Fin d2) false) = Fin (ln (1 - c)) /\ ln (1 - c) < 0 < 1 - ln c.
Proof.
  intros He Hx Hd Hdx Hc Hs. unfold pf, pf_limit_vals_dof, pchisq, pchisq_compute.
  un_cls. er_arith. cbn [eltb eleb]. rdecide. rewrite Hs. er_arith.
  assert (ln c < 0) by (rewrite <- ln_1; apply ln_increasing; lra).
  assert (ln (1 - c) < 0) by (rewrite <- ln_1; apply ln_increasing; lra).
  repeat split; auto; lra.
Qed.
