(** The densities at the end points of the support. *)
From Coq Require Import Reals ZArith QArith Bool Lra Lia.
From Coquelicot Require Import Coquelicot.
From Verif Require Import Num Sanity ER ERTac Prob Dens Quant Spec SpecER ClosedElem
  Analysis PowInt GammaFn BetaFn NormR SpecSF FamR BoundR Witness.
Local Open Scope R_scope.

Lemma limit_right_lim0 f l : lim0 f l -> limit_right f 0 (Fin l).
Proof. intros H e He. destruct (H e He) as (d & Hd & Hx). exists d. split; auto. intros. apply Hx. lra. Qed.
Lemma limit_right_inf f : lim0_inf f -> limit_right f 0 PInf.
Proof. intros H m. destruct (H m) as (d & Hd & Hx). exists d. split; auto. intros. apply Hx. lra. Qed.
Lemma limit_left_flip f g v : limit_right g 0 v -> (forall x, f (1 - x) = g x) -> limit_left f 1 v.
Proof.
  intros H E. destruct v; cbn in *; try contradiction.
  - intros m. destruct (H m) as (d & Hd & Hx). exists d. split; auto. intros x X.
    replace (- x) with (1 - (x + 1)) by ring. rewrite E. apply Hx. lra.
  - intros e He. destruct (H e He) as (d & Hd & Hx). exists d. split; auto. intros x X.
    replace (- x) with (1 - (x + 1)) by ring. rewrite E. apply Hx. lra.
Qed.

Section S.
Variable S : SF.
Notation NS := (ER_Num S).
Notation eps := (sf_eps S).
Ltac dd := repeat match goal with
  | |- context [Rlt_dec ?a ?b] => destruct (Rlt_dec a b); [try lra|try lra]
  | |- context [Req_EM_T ?a ?b] => destruct (Req_EM_T a b); [try lra|try lra] end.
Ltac go := un_cls; er_arith; rdecide.

Lemma dgamma_at0 k th lf : 0 < eps -> 0 < k -> eps <= th ->
  exists v, dgamma (N:=NS) (Fin 0) (Fin k) (Fin th) lf = ev lf v /\ limit_right (gamma_pdf k th) 0 v.
Proof.
  intros He Hk Ht. unfold dgamma, dgamma_limit_vals.
  destruct (Rtotal_order k 1) as [C|[->|C]].
  - exists PInf. split; [|apply limit_right_inf, gamma_0_lt; lra]. go. now destruct lf.
  - exists (Fin (1 / th)). split; [|apply limit_right_lim0, gamma_0_eq; lra]. go. now destruct lf.
  - exists (Fin 0). split; [|apply limit_right_lim0, gamma_0_gt; lra]. go. now destruct lf.
Qed.
Lemma dchisq_at0 n lf : 0 < n ->
  exists v, dchisq (N:=NS) (Fin 0) (Fin n) lf = ev lf v /\ limit_right (chisq_pdf n) 0 v.
Proof.
  intros Hn. unfold dchisq, dchisq_limit_vals.
  destruct (Rtotal_order n 2) as [C|[->|C]].
  - exists PInf. split; [|apply limit_right_inf, lim0_chisq_inf, gamma_0_lt; lra]. go. now destruct lf.
  - exists (Fin (1 / 2)). split.
    + go. now destruct lf.
    + apply limit_right_lim0, lim0_chisq. replace (2 / 2) with 1 by field. apply gamma_0_eq; lra.
  - exists (Fin 0). split; [|apply limit_right_lim0, lim0_chisq, gamma_0_gt; lra]. go. now destruct lf.
Qed.
Lemma dbeta_at0 a b lf : 0 < a -> 0 < b ->
  exists v, dbeta (N:=NS) (Fin 0) (Fin a) (Fin b) lf = ev lf v /\ limit_right (beta_pdf a b) 0 v.
Proof.
  intros Ha Hb. unfold dbeta.
  destruct (Rtotal_order a 1) as [C|[->|C]].
  - exists PInf. split; [|apply limit_right_inf, beta_0_lt; lra]. go. now destruct lf.
  - exists (Fin b). split; [|apply limit_right_lim0, beta_0_eq; lra]. go. destruct lf; unfold ev; now rewrite ?elog_F.
  - exists (Fin 0). split; [|apply limit_right_lim0, beta_0_gt; lra]. go. destruct lf; unfold ev; rewrite ?elog_0; reflexivity.
Qed.
Lemma dbeta_at1 a b lf : 0 < a -> 0 < b ->
  exists v, dbeta (N:=NS) (Fin 1) (Fin a) (Fin b) lf = ev lf v /\ limit_left (beta_pdf a b) 1 v.
Proof.
  intros Ha Hb. unfold dbeta.
  destruct (Rtotal_order b 1) as [C|[->|C]].
  - exists PInf. split.
    + go. now destruct lf.
    + apply (limit_left_flip _ (beta_pdf b a)); [apply limit_right_inf, beta_0_lt; lra|intros; apply beta_pdf_flip].
  - exists (Fin a). split.
    + go. destruct lf; unfold ev; now rewrite ?elog_F.
    + apply (limit_left_flip _ (beta_pdf 1 a)); [apply limit_right_lim0, beta_0_eq; lra|intros; apply beta_pdf_flip].
  - exists (Fin 0). split.
    + go. destruct lf; unfold ev; rewrite ?elog_0; reflexivity.
    + apply (limit_left_flip _ (beta_pdf b a)); [apply limit_right_lim0, beta_0_gt; lra|intros; apply beta_pdf_flip].
Qed.
Lemma df_at0 d1 d2 lf : 0 < eps -> eps <= d1 -> eps <= d2 ->
  exists v, df (N:=NS) (Fin 0) (Fin d1) (Fin d2) lf = ev lf v /\ limit_right (f_pdf d1 d2) 0 v.
Proof.
  intros He H1 H2. unfold df, df_limit_vals_x0.
  destruct (Rtotal_order d1 2) as [C|[->|C]].
  - exists PInf. split; [|apply limit_right_inf, f_0_lt; lra]. go. now destruct lf.
  - exists (Fin (1)). split; [|apply limit_right_lim0, f_0_eq; lra]. go. destruct lf; unfold ev; now rewrite ?elog_F by lra.
  - exists (Fin 0). split; [|apply limit_right_lim0, f_0_gt; lra]. go. now destruct lf.
Qed.
Lemma dinvgamma_at0 a b lf : 0 < a -> 0 < b ->
  exists v, dinvgamma (N:=NS) (Fin 0) (Fin a) (Fin b) lf = ev lf v /\ limit_right (invgamma_pdf a b) 0 v.
Proof.
  intros Ha Hb. exists (Fin 0). split; [|apply limit_right_lim0, invgamma_0; lra].
  unfold dinvgamma, dinvgamma_limit_vals. go. now destruct lf.
Qed.
Lemma dinvgauss_at0 mu l lf : 0 < mu -> 0 < l ->
  exists v, dinvgauss (N:=NS) (Fin 0) (Fin mu) (Fin l) lf = ev lf v /\ limit_right (invgauss_pdf mu l) 0 v.
Proof.
  intros Ha Hb. exists (Fin 0). split; [|apply limit_right_lim0, invgauss_0; lra].
  unfold dinvgauss, dinvgauss_limit_vals. go. now destruct lf.
Qed.
Lemma dlnorm_at0 mu s lf : 0 < s ->
  exists v, dlnorm (N:=NS) (Fin 0) (Fin mu) (Fin s) lf = ev lf v /\ limit_right (lnorm_pdf mu s) 0 v.
Proof.
  intros Hs. exists (Fin 0). split; [|apply limit_right_lim0, lnorm_0; lra].
  unfold dlnorm, dlnorm_limit_vals. un_cls. er_arith. rewrite ?elog_0. er_arith. rdecide. now destruct lf.
Qed.
Lemma dweibull_at0 k th lf : 0 < eps -> eps <= k -> eps <= th -> k <> 1 ->
  exists v, dweibull (N:=NS) (Fin 0) (Fin k) (Fin th) lf = ev lf v /\ limit_right (weibull_pdf k th) 0 v.
Proof.
  intros He Hk Ht H1. unfold dweibull, dweibull_log_compute.
  destruct (Rtotal_order k 1) as [C|[->|C]]; [| contradiction |].
  - exists PInf. split; [|apply limit_right_inf, weibull_0_lt; lra]. go. now destruct lf.
  - exists (Fin 0). split; [|apply limit_right_lim0, weibull_0_gt; lra].
    assert (0 < k / th) by (apply Rdiv_lt_0_compat; lra).
    un_cls. er_arith. replace (0 / th) with 0 by (field; lra). rewrite elog_0. rdecide. unfold epow, emul, scale_inf. dd.
    destruct lf; unfold ev; rewrite ?elog_0; reflexivity.
Qed.
Lemma dweibull_at0_1 th lf : 0 < eps <= 1 -> eps <= th ->
  dweibull (N:=NS) (Fin 0) (Fin 1) (Fin th) lf = NaN /\ limit_right (weibull_pdf 1 th) 0 (Fin (1 / th)).
Proof.
  intros He Ht. split; [|apply limit_right_lim0, weibull_0_eq; lra].
  assert (0 < 1 / th) by (apply Rdiv_lt_0_compat; lra).
  unfold dweibull, dweibull_log_compute.
  un_cls. er_arith. replace (0 / th) with 0 by (field; lra). rewrite elog_0. rdecide. unfold epow, emul, scale_inf. dd.
  now destruct lf.
Qed.
Lemma dexp_at0 r lf : 0 < r ->
  dexp (N:=NS) (Fin 0) (Fin r) lf = val lf r /\ limit_right (exp_pdf r) 0 (Fin r).
Proof.
  intros Hr. split.
  - rewrite dexp_val by lra. unfold exp_pdf. rewrite Rmult_0_r, exp_0. now rewrite Rmult_1_r.
  - apply limit_right_lim0. replace r with (exp_pdf r 0) at 2.
    + apply lim0_cont; auto. apply exd_cont. unfold exp_pdf. auto_derive. auto.
    + unfold exp_pdf. rewrite Rmult_0_r, exp_0. ring.
Qed.
End S.
