(** Scale zero (C46) and short overloads (C28). *)
From Coq Require Import Reals ZArith QArith Bool Lra Lia Psatz.
From Verif Require Import Num Sanity ER ERTac Prob Dens Quant Spec SpecER ClosedElem LogForm Support.
Local Open Scope R_scope.

(** The point mass at [m]: density, distribution function, quantile. *)
Definition mass_pdf (m x : R) : ER := if Req_EM_T x m then PInf else Fin 0.
Definition mass_cdf (m x : R) : R := if Rle_dec m x then 1 else 0.

Ltac deg := unfold mass_pdf, mass_cdf; er_all; rdec; er_red;
  repeat match goal with |- context [if Req_EM_T ?a ?b then _ else _] => destruct (Req_EM_T a b) end;
  repeat match goal with |- context [if Rle_dec ?a ?b then _ else _] => destruct (Rle_dec a b) end;
  try lra; subst; try contradiction; try reflexivity; try (f_equal; lra).

Section S.
Variable S : SF.
Notation NS := (ER_Num S).
Implicit Types x m p : R.

Lemma dnorm_deg x m : dnorm (N:=NS) (Fin x) (Fin m) (Fin 0) false = mass_pdf m x.
Proof. unfold dnorm, dnorm_limit_vals. deg. Qed.
Lemma pnorm_deg x m : pnorm (N:=NS) (Fin x) (Fin m) (Fin 0) false = Fin (mass_cdf m x).
Proof. unfold pnorm, pnorm_limit_vals. deg. Qed.
Lemma qnorm_deg p m : 0 <= p <= 1 -> qnorm (N:=NS) (Fin p) (Fin m) (Fin 0) = Fin m.
Proof. intros. unfold qnorm. deg. Qed.
Lemma dlaplace_deg x m : dlaplace (N:=NS) (Fin x) (Fin m) (Fin 0) false = mass_pdf m x.
Proof. unfold dlaplace, dlaplace_limit_vals. deg. Qed.
Lemma plaplace_deg x m : x <> m -> plaplace (N:=NS) (Fin x) (Fin m) (Fin 0) false = Fin (mass_cdf m x).
Proof. intros. unfold plaplace, plaplace_limit_vals. deg. Qed.
Lemma plaplace_deg_at m : plaplace (N:=NS) (Fin m) (Fin m) (Fin 0) false = Fin (1 / 2).
Proof. unfold plaplace, plaplace_limit_vals. deg. Qed.
Lemma qlaplace_deg p m : 0 <= p <= 1 -> qlaplace (N:=NS) (Fin p) (Fin m) (Fin 0) = Fin m.
Proof. intros. unfold qlaplace. deg. Qed.
Lemma plogis_deg x m : x <> m -> plogis (N:=NS) (Fin x) (Fin m) (Fin 0) false = Fin (mass_cdf m x).
Proof. intros. unfold plogis, plogis_limit_vals. deg. Qed.
Lemma plogis_deg_at m : plogis (N:=NS) (Fin m) (Fin m) (Fin 0) false = Fin (1 / 2).
Proof. unfold plogis, plogis_limit_vals. deg. Qed.
Lemma qlogis_deg p m : 0 <= p <= 1 -> qlogis (N:=NS) (Fin p) (Fin m) (Fin 0) = Fin m.
Proof. intros. unfold qlogis. deg. Qed.
Lemma qcauchy_deg p m : 0 <= p <= 1 -> qcauchy (N:=NS) (Fin p) (Fin m) (Fin 0) = Fin m.
Proof. intros. unfold qcauchy. deg. Qed.
Lemma dlogis_deg x m : dlogis (N:=NS) (Fin x) (Fin m) (Fin 0) false = NaN.
Proof.
  unfold dlogis, dlogis_log_compute. un_cls. er_arith. rdecide.
  destruct (Rtotal_order x m) as [H|[->|H]].
  - rewrite ediv_neg_0 by lra. rewrite ?elog_0. er_red. cbn [elog].
    rewrite emul_pos_P by lra. reflexivity.
  - replace (m - m) with 0 by lra. rewrite ediv_0_0. reflexivity.
  - rewrite ediv_pos_0 by lra. rewrite ?elog_0. er_red. reflexivity.
Qed.
Lemma dcauchy_deg x m : dcauchy (N:=NS) (Fin x) (Fin m) (Fin 0) false = NaN.
Proof.
  unfold dcauchy, dcauchy_compute. un_cls. er_arith. rdecide. rewrite Rmult_0_l.
  destruct (Rtotal_order x m) as [H|[->|H]].
  - rewrite ediv_neg_0 by lra. cbn [emul eadd]. fold (emul (Fin 0) PInf).
    change (scale_inf 0 PInf) with (emul (Fin 0) PInf). rewrite emul_0_P. reflexivity.
  - replace (m - m) with 0 by lra. rewrite ediv_0_0. reflexivity.
  - rewrite ediv_pos_0 by lra. cbn [emul eadd].
    change (scale_inf 0 PInf) with (emul (Fin 0) PInf). rewrite emul_0_P. reflexivity.
Qed.
Lemma pcauchy_deg x m : x <> m -> pcauchy (N:=NS) (Fin x) (Fin m) (Fin 0) false = Fin (mass_cdf m x).
Proof.
  intros Hx. unfold pcauchy, pcauchy_compute, mass_cdf. un_cls. er_arith. rdecide.
  pose proof PI_RGT_0.
  destruct (Rle_dec m x).
  - rewrite ediv_pos_0 by lra. er_red. er_arith. f_equal. field. lra.
  - rewrite ediv_neg_0 by lra. er_red. er_arith. f_equal. field. lra.
Qed.
Lemma pcauchy_deg_at m : pcauchy (N:=NS) (Fin m) (Fin m) (Fin 0) false = NaN.
Proof.
  unfold pcauchy, pcauchy_compute. un_cls. er_arith. rdecide.
  replace (m - m) with 0 by lra. rewrite ediv_0_0. reflexivity.
Qed.
(** log-normal: the mass sits at exp m *)
Lemma plnorm_deg x m : sf_eps S <= x -> 0 < x ->
  plnorm (N:=NS) (Fin x) (Fin m) (Fin 0) false = Fin (mass_cdf (Rtrigo_def.exp m) x).
Proof.
  intros He Hx. unfold plnorm. cbn [log ER_Num]. rewrite elog_F by auto. rewrite pnorm_deg.
  un_cls. er_arith. rdecide. unfold mass_cdf. f_equal.
  destruct (Rle_dec m (ln x)), (Rle_dec (Rtrigo_def.exp m) x); auto; exfalso.
  - apply n. rewrite <- (exp_ln x) by auto. destruct r as [r| ->]; [left; now apply exp_increasing|lra].
  - apply n. rewrite <- (ln_exp m). destruct r as [r| <-]; [left; apply ln_increasing; auto; apply exp_pos|lra].
Qed.
Lemma qlnorm_deg p m : 0 <= p <= 1 -> qlnorm (N:=NS) (Fin p) (Fin m) (Fin 0) = Fin (Rtrigo_def.exp m).
Proof. intros. unfold qlnorm. rewrite qnorm_deg by auto. deg. Qed.
Lemma dlnorm_deg x m : 0 < x -> dlnorm (N:=NS) (Fin x) (Fin m) (Fin 0) false = Fin 0.
Proof.
  intros. unfold dlnorm, dlnorm_limit_vals. cbn [log ER_Num]. rewrite elog_F by auto. deg.
Qed.

(** ** C28 *)
Lemma dunif_std_eq (x : ER) : dunif_std (N:=NS) x = dunif (N:=NS) x (Fin 0) (Fin 1) false.
Proof. reflexivity. Qed.
End S.
