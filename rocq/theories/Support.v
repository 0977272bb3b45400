(** Densities outside the support (C04), CDF end values (C05), densities are not
    negative (C07), degenerate scale (C46). *)
From Coq Require Import Reals ZArith QArith Bool Lra Lia Psatz.
From Verif Require Import Num Sanity ER ERTac Prob Dens Quant Spec SpecER ClosedElem LogForm.
Local Open Scope R_scope.

Ltac er_red := cbn [eltb eleb eeqb eneg eabs eexp eexpm1 eatan etanh eadd esub].
Ltac er_all := un_cls; er_red; er_arith; er_red; rdecide; er_red.
Ltac er_fin := er_all; unfold val, zero_form, one_form; er_arith; rewrite ?elog_0, ?elog_1, ?ln_1;
  try reflexivity.

Lemma Elt0_cases x : Elt x (Fin 0) -> x = MInf \/ exists r, x = Fin r /\ r < 0.
Proof. destruct x; cbn; intros H; try discriminate; auto. right. eexists; split; eauto. now apply Elt_Fin. Qed.
Lemma Egt_cases c x : Elt (Fin c) x -> x = PInf \/ exists r, x = Fin r /\ c < r.
Proof. destruct x; cbn; intros H; try discriminate; auto. right. eexists; split; eauto. now apply Elt_Fin. Qed.
Lemma Elt_cases c x : Elt x (Fin c) -> x = MInf \/ exists r, x = Fin r /\ r < c.
Proof. destruct x; cbn; intros H; try discriminate; auto. right. eexists; split; eauto. now apply Elt_Fin. Qed.

Ltac neg_x H := apply Elt0_cases in H; destruct H as [->|(? & -> & ?)].

(** [un_cls] exposes the record inside nested calls; fold it back *)
Ltac refold S :=
  repeat match goal with
  | |- context [{| add := ?a; sub := ?b; mul := ?c; div := ?d; neg := ?e; abs := ?f; ltb := ?g; leb := ?h;
       eqb := ?i; ofZ := ?j; lit := ?k; nan := ?l; pinf := ?m; epsilon := ?n; tmin := ?o; is_nan := ?p;
       is_posinf := ?q; is_neginf := ?r; exp := ?s; log := ?t; expm1 := ?u; log1p := ?v; sqrt := ?w;
       pow := ?x; powZ := ?y; atan := ?z; tan := ?a1; tanh := ?a2; erf := ?a3; erf_inv := ?a4;
       lgamma := ?a5; incgamma := ?a6; incgamma_inv := ?a7; incbeta := ?a8; incbeta_inv := ?a9;
       log_binom := ?b1; factorial := ?b2; PI := ?b3; LOG_2PI := ?b4; LOG_2 := ?b5; LOG_PI := ?b6;
       SQRT_2 := ?b7; SQRT_HALF_PI := ?b8 |}] =>
    change ({| add := a; sub := b; mul := c; div := d; neg := e; abs := f; ltb := g; leb := h;
       eqb := i; ofZ := j; lit := k; nan := l; pinf := m; epsilon := n; tmin := o; is_nan := p;
       is_posinf := q; is_neginf := r; exp := s; log := t; expm1 := u; log1p := v; sqrt := w;
       pow := x; powZ := y; atan := z; tan := a1; tanh := a2; erf := a3; erf_inv := a4;
       lgamma := a5; incgamma := a6; incgamma_inv := a7; incbeta := a8; incbeta_inv := a9;
       log_binom := b1; factorial := b2; PI := b3; LOG_2PI := b4; LOG_2 := b5; LOG_PI := b6;
       SQRT_2 := b7; SQRT_HALF_PI := b8 |}) with (ER_Num S)
  end.

Section S.
Variable S : SF.
Notation NS := (ER_Num S).
Notation eps := (sf_eps S).

(** ** C04 *)
Lemma dexp_out x rate lf : 0 <= rate -> Elt x (Fin 0) -> dexp (N:=NS) x (Fin rate) lf = zero_form lf.
Proof. intros Hr H. neg_x H; unfold dexp; destruct lf; er_fin. Qed.
Lemma dgamma_out x k th lf : 0 <= k -> eps <= th -> Elt x (Fin 0) ->
  dgamma (N:=NS) x (Fin k) (Fin th) lf = zero_form lf.
Proof. intros Hr Ht H. neg_x H; unfold dgamma; destruct lf; er_fin. Qed.
Lemma dinvgamma_out x k th lf : 0 <= k -> 0 <= th -> Elt x (Fin 0) ->
  dinvgamma (N:=NS) x (Fin k) (Fin th) lf = zero_form lf.
Proof. intros Hr Ht H. neg_x H; unfold dinvgamma; destruct lf; er_fin. Qed.
Lemma dchisq_out x k lf : 0 <= k -> Elt x (Fin 0) -> dchisq (N:=NS) x (Fin k) lf = zero_form lf.
Proof. intros Hr H. neg_x H; unfold dchisq; destruct lf; er_fin. Qed.
Lemma df_out x d1 d2 lf : eps <= d1 -> eps <= d2 -> Elt x (Fin 0) ->
  df (N:=NS) x (Fin d1) (Fin d2) lf = zero_form lf.
Proof. intros Hr Ht H. neg_x H; unfold df; destruct lf; er_fin. Qed.
Lemma dinvgauss_out x mu l lf : 0 <= mu -> 0 <= l -> Elt x (Fin 0) ->
  dinvgauss (N:=NS) x (Fin mu) (Fin l) lf = zero_form lf.
Proof. intros Hr Ht H. neg_x H; unfold dinvgauss; destruct lf; er_fin. Qed.
Lemma dlnorm_out x mu s lf : 0 <= s -> Elt x (Fin 0) ->
  dlnorm (N:=NS) x (Fin mu) (Fin s) lf = zero_form lf.
Proof. intros Ht H. neg_x H; unfold dlnorm; destruct lf; er_fin. Qed.
Lemma dweibull_out x k th lf : eps <= k -> eps <= th -> Elt x (Fin 0) ->
  dweibull (N:=NS) x (Fin k) (Fin th) lf = zero_form lf.
Proof. intros Hr Ht H. neg_x H; unfold dweibull; destruct lf; er_fin. Qed.
Lemma dbeta_out x a b lf : 0 <= a -> 0 <= b -> Elt x (Fin 0) \/ Elt (Fin 1) x ->
  dbeta (N:=NS) x (Fin a) (Fin b) lf = zero_form lf.
Proof.
  intros Hr Ht [H|H]; [neg_x H|apply Egt_cases in H; destruct H as [->|(? & -> & ?)]];
  unfold dbeta; destruct lf; er_fin.
Qed.
Lemma dunif_out_ER x a b lf : a < b -> Elt x (Fin a) \/ Elt (Fin b) x ->
  dunif (N:=NS) x (Fin a) (Fin b) lf = zero_form lf.
Proof.
  intros Ht [H|H]; [apply Elt_cases in H|apply Egt_cases in H]; destruct H as [->|(? & -> & ?)];
  unfold dunif; destruct lf; er_fin.
Qed.
Lemma dbern_out x pr lf : 0 <= pr <= 1 -> x <> 0%Z -> x <> 1%Z ->
  dbern (N:=NS) x (Fin pr) lf = zero_form lf.
Proof.
  intros Hr H0 H1. unfold dbern, dbern_compute.
  rewrite (proj2 (Z.eqb_neq x 0)), (proj2 (Z.eqb_neq x 1)) by auto. destruct lf; er_fin.
Qed.
Lemma dradem_out x pr lf : 0 <= pr <= 1 -> x <> (-1)%Z -> x <> 1%Z ->
  dradem (N:=NS) x (Fin pr) lf = zero_form lf.
Proof.
  intros Hr H0 H1. unfold dradem, dradem_compute.
  rewrite (proj2 (Z.eqb_neq x (-1))), (proj2 (Z.eqb_neq x 1)) by auto. destruct lf; er_fin.
Qed.
Lemma dbinom_out x n pr lf : (0 <= n)%Z -> 0 <= pr <= 1 -> (x < 0 \/ n < x)%Z ->
  dbinom (N:=NS) x n (Fin pr) lf = zero_form lf.
Proof.
  intros Hn Hr Hx. unfold dbinom. un_cls.
  replace (n <? 0)%Z with false by (symmetry; apply Z.ltb_ge; lia).
  er_arith. rdecide.
  assert ((if (x <? 0)%Z then true else (n <? x)%Z) = true) as ->.
  { destruct (x <? 0)%Z eqn:E; auto. apply Z.ltb_lt. apply Z.ltb_ge in E. lia. }
  destruct lf; reflexivity.
Qed.
Lemma dpois_out x rate lf : 0 <= rate -> (x < 0)%Z -> dpois (N:=NS) x (Fin rate) lf = zero_form lf.
Proof.
  intros Hr Hx. unfold dpois. un_cls. er_arith. rdecide.
  rewrite (proj2 (Z.ltb_lt x 0)) by auto. destruct lf; reflexivity.
Qed.
(** infinite points *)
Lemma dnorm_inf mu s lf : 0 <= s -> dnorm (N:=NS) PInf (Fin mu) (Fin s) lf = zero_form lf
  /\ dnorm (N:=NS) MInf (Fin mu) (Fin s) lf = zero_form lf.
Proof. intros; unfold dnorm, dnorm_limit_vals; split; destruct lf; er_all; rdec; er_fin. Qed.
Lemma dlaplace_inf mu s lf : 0 <= s -> dlaplace (N:=NS) PInf (Fin mu) (Fin s) lf = zero_form lf
  /\ dlaplace (N:=NS) MInf (Fin mu) (Fin s) lf = zero_form lf.
Proof. intros; unfold dlaplace, dlaplace_limit_vals; split; destruct lf; er_all; rdec; er_fin. Qed.
Lemma dlogis_inf mu s lf : 0 <= s -> dlogis (N:=NS) PInf (Fin mu) (Fin s) lf = zero_form lf
  /\ dlogis (N:=NS) MInf (Fin mu) (Fin s) lf = zero_form lf.
Proof. intros; unfold dlogis, dlogis_limit_vals; split; destruct lf; er_all; rdec; er_fin. Qed.
Lemma dcauchy_inf mu s lf : 0 <= s -> dcauchy (N:=NS) PInf (Fin mu) (Fin s) lf = zero_form lf
  /\ dcauchy (N:=NS) MInf (Fin mu) (Fin s) lf = zero_form lf.
Proof. intros; unfold dcauchy, dcauchy_limit_vals; split; destruct lf; er_fin. Qed.
Lemma dt_inf d lf : eps <= d -> dt (N:=NS) PInf (Fin d) lf = zero_form lf
  /\ dt (N:=NS) MInf (Fin d) lf = zero_form lf.
Proof. intros; unfold dt; split; destruct lf; er_fin. Qed.
Lemma dchisq_inf k lf : 0 <= k -> dchisq (N:=NS) PInf (Fin k) lf = zero_form lf.
Proof. intros; unfold dchisq; destruct lf; er_fin. Qed.
Lemma dgamma_inf k th lf : 0 <= k -> eps <= th -> dgamma (N:=NS) PInf (Fin k) (Fin th) lf = zero_form lf.
Proof. intros; unfold dgamma, dgamma_limit_vals; destruct lf; er_all; rdec; er_fin. Qed.
Lemma dinvgamma_inf k th lf : 0 < k -> 0 <= th -> dinvgamma (N:=NS) PInf (Fin k) (Fin th) lf = zero_form lf.
Proof. intros; unfold dinvgamma, dinvgamma_limit_vals; destruct lf; er_all; rdec; er_fin. Qed.
Lemma dinvgauss_inf mu l lf : 0 <= mu -> 0 <= l -> dinvgauss (N:=NS) PInf (Fin mu) (Fin l) lf = zero_form lf.
Proof. intros; unfold dinvgauss, dinvgauss_limit_vals; destruct lf; er_all; rdec; er_fin. Qed.
Lemma dlnorm_inf mu s lf : 0 <= s -> dlnorm (N:=NS) PInf (Fin mu) (Fin s) lf = zero_form lf.
Proof. intros; unfold dlnorm, dlnorm_limit_vals; destruct lf; un_cls; cbn [elog]; er_all; rdec; er_fin. Qed.
Lemma dweibull_inf k th lf : eps <= k -> eps <= th -> dweibull (N:=NS) PInf (Fin k) (Fin th) lf = zero_form lf.
Proof. intros; unfold dweibull; destruct lf; er_fin. Qed.
Lemma df_inf d1 d2 lf : eps <= d1 -> eps <= d2 -> 2 <= d1 -> 1 <= d2 ->
  df (N:=NS) PInf (Fin d1) (Fin d2) lf = zero_form lf.
Proof. intros; unfold df, df_limit_vals_xinf; destruct lf; er_fin. Qed.
Lemma df_inf_bad d1 d2 lf : eps <= d1 -> eps <= d2 -> d1 < 2 \/ d2 < 1 ->
  df (N:=NS) PInf (Fin d1) (Fin d2) lf = NaN.
Proof. intros ? ? [|]; unfold df, df_limit_vals_xinf; destruct lf; er_all; rdec; er_fin. Qed.

(** ** C05 *)
Ltac d_lf := match goal with lf : bool |- _ => destruct lf end.
Ltac ends := intros; repeat split; d_lf; er_all; rdec; er_fin.
Lemma pnorm_ends mu s lf : 0 <= s ->
  pnorm (N:=NS) MInf (Fin mu) (Fin s) lf = zero_form lf /\ pnorm (N:=NS) PInf (Fin mu) (Fin s) lf = one_form lf.
Proof. unfold pnorm, pnorm_limit_vals. ends. Qed.
Lemma half_ends lf : val lf (1 / 2 + 1 / 2 * 1) = one_form lf /\ val lf (1 / 2 + 1 / 2 * -1) = zero_form lf.
Proof.
  replace (1 / 2 + 1 / 2 * 1) with 1 by lra. replace (1 / 2 + 1 / 2 * -1) with 0 by lra.
  destruct lf; unfold val; rewrite ?elog_0, ?elog_1; auto.
Qed.
Lemma plaplace_ends mu s lf : 0 <= s ->
  plaplace (N:=NS) MInf (Fin mu) (Fin s) lf = zero_form lf /\ plaplace (N:=NS) PInf (Fin mu) (Fin s) lf = one_form lf.
Proof.
  unfold plaplace, plaplace_limit_vals; intros; split; er_all; rdec; er_red.
  all: first [ apply (half_ends lf) | destruct lf; er_fin ].
Qed.
Lemma plogis_ends mu s lf : 0 <= s ->
  plogis (N:=NS) MInf (Fin mu) (Fin s) lf = zero_form lf /\ plogis (N:=NS) PInf (Fin mu) (Fin s) lf = one_form lf.
Proof. unfold plogis, plogis_limit_vals. ends. Qed.
Lemma pcauchy_ends mu s lf : 0 <= s ->
  pcauchy (N:=NS) MInf (Fin mu) (Fin s) lf = zero_form lf /\ pcauchy (N:=NS) PInf (Fin mu) (Fin s) lf = one_form lf.
Proof. unfold pcauchy, pcauchy_limit_vals. ends. Qed.
Lemma pt_ends d lf : eps <= d ->
  pt (N:=NS) MInf (Fin d) lf = zero_form lf /\ pt (N:=NS) PInf (Fin d) lf = one_form lf.
Proof. unfold pt. ends. Qed.
Lemma pexp_below x rate lf : 0 <= rate -> Ele x (Fin 0) -> pexp (N:=NS) x (Fin rate) lf = zero_form lf.
Proof.
  intros Hr H. destruct x as [| | |x]; try discriminate H; unfold pexp, pexp_compute.
  - destruct lf; er_fin.
  - apply Ele_Fin in H. destruct lf; er_fin.
Qed.
Lemma pexp_above rate lf : 0 < rate -> pexp (N:=NS) PInf (Fin rate) lf = one_form lf.
Proof.
  intros Hr. unfold pexp, pexp_compute. un_cls; er_red; er_arith. rewrite emul_neg_P by lra.
  destruct lf; er_fin; replace (- -1) with 1 by lra; rewrite ?elog_1, ?ln_1; reflexivity.
Qed.
Lemma pexp_above_bad lf : pexp (N:=NS) PInf (Fin 0) lf = NaN.
Proof.
  unfold pexp, pexp_compute. un_cls; er_red; er_arith. rewrite Ropp_0, emul_0_P. destruct lf; er_fin.
Qed.
Lemma punif_below x a b lf : a < b -> Ele x (Fin a) -> punif (N:=NS) x (Fin a) (Fin b) lf = zero_form lf.
Proof.
  intros Hr H. destruct x as [| | |x]; try discriminate H; unfold punif, punif_compute.
  - destruct lf; er_fin.
  - apply Ele_Fin in H. destruct lf; er_fin.
Qed.
Lemma punif_above x a b lf : a < b -> Ele (Fin b) x -> punif (N:=NS) x (Fin a) (Fin b) lf = one_form lf.
Proof.
  intros Hr H. destruct x as [| | |x]; try discriminate H; unfold punif, punif_compute.
  - destruct lf; er_fin.
  - apply Ele_Fin in H. destruct lf; er_fin.
Qed.
Ltac below H := intros; destruct H as [| | |x]; try discriminate;
  try match goal with K : Ele _ _ |- _ => apply Ele_Fin in K end;
  d_lf; er_all; rdec; er_fin.
Lemma pweibull_below x k th lf : 0 < eps -> eps <= k -> eps <= th -> Ele x (Fin 0) ->
  pweibull (N:=NS) x (Fin k) (Fin th) lf = zero_form lf.
Proof. unfold pweibull. below x. Qed.
Lemma pweibull_above k th lf : 0 < eps -> eps <= k -> eps <= th ->
  pweibull (N:=NS) PInf (Fin k) (Fin th) lf = one_form lf.
Proof. unfold pweibull, pweibull_limit_vals. ends. Qed.
Lemma pchisq_below x k lf : 0 < eps -> 0 <= k -> Ele x (Fin 0) ->
  pchisq (N:=NS) x (Fin k) lf = zero_form lf.
Proof. unfold pchisq. below x. Qed.
Lemma pchisq_above k lf : 0 <= k -> pchisq (N:=NS) PInf (Fin k) lf = one_form lf.
Proof. unfold pchisq. ends. Qed.
Lemma pgamma_below x k th lf : 0 < eps -> 0 <= k -> eps <= th -> Ele x (Fin 0) ->
  pgamma (N:=NS) x (Fin k) (Fin th) lf = zero_form lf.
Proof. unfold pgamma. below x. Qed.
Lemma pgamma_above k th lf : 0 <= k -> eps <= th ->
  pgamma (N:=NS) PInf (Fin k) (Fin th) lf = one_form lf.
Proof. unfold pgamma, pgamma_limit_vals. ends. Qed.
Lemma pf_below x d1 d2 lf : 0 < eps -> eps <= d1 -> eps <= d2 -> Ele x (Fin 0) ->
  pf (N:=NS) x (Fin d1) (Fin d2) lf = zero_form lf.
Proof. unfold pf. below x. Qed.
Lemma pf_above d1 d2 lf : eps <= d1 -> eps <= d2 ->
  pf (N:=NS) PInf (Fin d1) (Fin d2) lf = one_form lf.
Proof. unfold pf. ends. Qed.
Lemma plnorm_below x mu s lf : 0 < eps -> 0 <= s -> Ele x (Fin 0) ->
  plnorm (N:=NS) x (Fin mu) (Fin s) lf = zero_form lf.
Proof. unfold plnorm. below x. Qed.
Lemma plnorm_above mu s lf : 0 <= s -> plnorm (N:=NS) PInf (Fin mu) (Fin s) lf = one_form lf.
Proof.
  intros. unfold plnorm. cbn [log ER_Num elog]. rewrite (proj2 (pnorm_ends mu s lf H)).
  destruct lf; er_fin.
Qed.
Lemma pbeta_below x a b lf : 0 <= a -> 0 <= b -> Ele x (Fin 0) ->
  pbeta (N:=NS) x (Fin a) (Fin b) lf = zero_form lf.
Proof. unfold pbeta. below x. Qed.
Lemma pbeta_above x a b lf : 0 <= a -> 0 <= b -> Ele (Fin 1) x ->
  pbeta (N:=NS) x (Fin a) (Fin b) lf = one_form lf.
Proof. unfold pbeta. below x. Qed.
Lemma pinvgauss_below x mu l lf : 0 < mu -> 0 < l -> Ele x (Fin 0) ->
  pinvgauss (N:=NS) x (Fin mu) (Fin l) lf = zero_form lf.
Proof. unfold pinvgauss, pinvgauss_limit_vals. below x. Qed.
Lemma pinvgauss_above mu l lf : 0 < mu -> 0 < l ->
  pinvgauss (N:=NS) PInf (Fin mu) (Fin l) lf = one_form lf.
Proof. unfold pinvgauss, pinvgauss_limit_vals. ends. Qed.
(** the scale 1/rate handed to pgamma must pass pgamma's own check *)
Lemma pinvgamma_below x k r lf : 0 < eps -> 0 < k -> 0 < r -> eps <= 1 / r -> Ele x (Fin 0) ->
  pinvgamma (N:=NS) x (Fin k) (Fin r) lf = zero_form lf.
Proof.
  intros He Hk Hr Hr1 H. destruct x as [| | |x]; try discriminate.
  - unfold pinvgamma. destruct lf; er_fin.
  - apply Ele_Fin in H. destruct H as [H| ->].
    + unfold pinvgamma. destruct lf; er_fin.
    + unfold pinvgamma, pinvgamma_limit_vals, pinvgamma_compute. un_cls. er_arith. rdecide. er_arith. refold S.
      rewrite pgamma_above by lra. cbn [one_form]. rewrite esub_F.
      replace (1 - 1) with 0 by lra. destruct lf; er_fin.
Qed.
Lemma pinvgamma_above k r lf : 0 < eps -> 0 < k -> 0 < r -> eps <= 1 / r ->
  pinvgamma (N:=NS) PInf (Fin k) (Fin r) lf = one_form lf.
Proof.
  intros He Hk Hr Hr1. unfold pinvgamma, pinvgamma_limit_vals, pinvgamma_compute.
  un_cls. er_red. er_arith. rdecide. er_arith. refold S.
  rewrite pgamma_below by (try lra; apply Ele_Fin; lra). cbn [zero_form]. rewrite ?esub_F.
  replace (1 - 0) with 1 by lra. destruct lf; er_fin.
Qed.
(** for a larger rate every value is NaN *)
Lemma pgamma_small_scale x k th lf : th < eps -> pgamma (N:=NS) x k (Fin th) lf = NaN.
Proof.
  intros H. unfold pgamma. un_cls. er_arith.
  destruct x, k; cbn [eltb eisnan]; rdecide; er_iota; try reflexivity;
  destruct (Rltb r 0); try reflexivity; destruct (Rltb r0 0); reflexivity.
Qed.
Lemma pinvgamma_big_rate x k r lf : 0 < eps -> 0 <= k -> 0 < r -> 1 / r < eps -> 0 < x ->
  pinvgamma (N:=NS) (Fin x) (Fin k) (Fin r) lf = NaN.
Proof.
  intros He Hk Hr Hr1 Hx. unfold pinvgamma, pinvgamma_limit_vals, pinvgamma_compute.
  un_cls. er_red. er_arith. rdecide. er_arith. refold S. rewrite pgamma_small_scale by lra.
  destruct lf; reflexivity.
Qed.
Lemma pbern_below x pr lf : 0 <= pr <= 1 -> (x < 0)%Z -> pbern (N:=NS) x (Fin pr) lf = zero_form lf.
Proof.
  intros Hp Hx. unfold pbern, pbern_compute. rewrite (proj2 (Z.ltb_lt x 0)) by auto. destruct lf; er_fin.
Qed.
Lemma pbern_above x pr lf : 0 <= pr <= 1 -> (1 <= x)%Z -> pbern (N:=NS) x (Fin pr) lf = one_form lf.
Proof.
  intros Hp Hx. unfold pbern, pbern_compute.
  rewrite (proj2 (Z.ltb_ge x 0)), (proj2 (Z.leb_le 1 x)) by lia. destruct lf; er_fin.
Qed.
Lemma pradem_below x pr lf : 0 <= pr <= 1 -> (x < -1)%Z -> pradem (N:=NS) x (Fin pr) lf = zero_form lf.
Proof.
  intros Hp Hx. unfold pradem, pradem_compute. rewrite (proj2 (Z.ltb_lt x (-1))) by auto. destruct lf; er_fin.
Qed.
Lemma pradem_above x pr lf : 0 <= pr <= 1 -> (1 <= x)%Z -> pradem (N:=NS) x (Fin pr) lf = one_form lf.
Proof.
  intros Hp Hx. unfold pradem, pradem_compute.
  rewrite (proj2 (Z.ltb_ge x (-1))), (proj2 (Z.leb_le 1 x)) by lia. destruct lf; er_fin.
Qed.
Lemma pbinom_below x n pr lf : (0 <= n)%Z -> 0 <= pr <= 1 -> (x < 0)%Z ->
  pbinom (N:=NS) x n (Fin pr) lf = zero_form lf.
Proof.
  intros Hn Hp Hx. unfold pbinom. un_cls. er_arith. rdecide.
  rewrite (proj2 (Z.ltb_lt x 0)), (proj2 (Z.ltb_ge n 0)) by auto. destruct lf; reflexivity.
Qed.
Lemma pbinom_above x n pr lf : (0 <= n)%Z -> 0 <= pr <= 1 -> (n <= x)%Z ->
  pbinom (N:=NS) x n (Fin pr) lf = one_form lf.
Proof.
  intros Hn Hp Hx. unfold pbinom. un_cls. er_arith. rdecide.
  rewrite (proj2 (Z.ltb_ge x 0)), (proj2 (Z.ltb_ge n 0)), (proj2 (Z.leb_le n x)) by lia.
  destruct lf; cbn; rewrite ?ln_1; reflexivity.
Qed.
Lemma ppois_below x rate lf : 0 <= rate -> (x < 0)%Z -> ppois (N:=NS) x (Fin rate) lf = zero_form lf.
Proof.
  intros Hp Hx. unfold ppois. un_cls. er_arith. rdecide.
  rewrite (proj2 (Z.ltb_lt x 0)) by auto. destruct lf; reflexivity.
Qed.
End S.
