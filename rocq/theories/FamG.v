(** Gamma, chi-squared and inverse-gamma families, for a log-gamma function, an
    incomplete gamma function and its inverse that are the mathematical ones. *)
From Coq Require Import Reals ZArith QArith Bool Lra Lia Psatz.
From Coquelicot Require Import Coquelicot.
From Verif Require Import Num Sanity ER ERTac Prob Dens Quant Spec SpecER ClosedElem RealElem
  LogForm Support Elem Analysis Erf NormR Norm PowInt GammaFn BetaFn SpecSF FamR.
Local Open Scope R_scope.

(** the values of the outside functions (GCEM, <cmath>) at finite arguments *)
Definition lgamma_spec (S : SF) : Prop := forall a, 0 < a -> sf_lgamma S (Fin a) = Fin (ln (Gam a)).
Definition incgamma_spec (S : SF) : Prop :=
  forall a x, 0 < a -> 0 <= x -> sf_incgamma S (Fin a) (Fin x) = Fin (PG a x).
Definition incgamma_inv_spec (S : SF) : Prop :=
  forall a p, 0 < a -> 0 < p < 1 -> exists x, sf_incgamma_inv S (Fin a) (Fin p) = Fin x /\ 0 < x /\ PG a x = p.

Section S.
Variable S : SF.
Notation NS := (ER_Num S).
Notation eps := (sf_eps S).

(** ** Gamma *)
Lemma dgamma_val x k th lf : lgamma_spec S -> 0 < eps -> 0 < k -> eps <= th -> 0 < x ->
  dgamma (N:=NS) (Fin x) (Fin k) (Fin th) lf = val lf (gamma_pdf k th x).
Proof.
  intros HL He Hk Ht Hx. unfold dgamma, dgamma_log_compute. un_cls. rewrite HL by auto. er_arith. rdecide.
  apply expval. unfold gamma_pdf. pose proof (Gam_pos k Hk).
  rewrite !exp_minus, exp_plus, exp_minus, exp_Ropp, exp_ln by auto.
  rewrite <- !Rpower_exp_ln by lra. unfold Rdiv at 1. rewrite <- exp_Ropp.
  replace (- x / th) with (- (x / th)) by (field; lra).
  pose proof (Rpower_nz th k). field. split; lra.
Qed.
Lemma pgamma_val x k th lf : incgamma_spec S -> 0 < eps -> 0 < k -> eps <= th -> eps <= x ->
  pgamma (N:=NS) (Fin x) (Fin k) (Fin th) lf = val lf (gamma_cdf k th x).
Proof.
  intros HI He Hk Ht Hx. unfold pgamma, pgamma_compute. un_cls. er_arith.
  rewrite HI by (auto; left; apply Rdiv_lt_0_compat; lra). rdecide. destruct lf; reflexivity.
Qed.
Lemma pgamma_low x k th lf : 0 <= k -> eps <= th -> x < eps ->
  pgamma (N:=NS) (Fin x) (Fin k) (Fin th) lf = val lf 0.
Proof.
  intros. unfold pgamma. un_cls. er_arith. rdecide. destruct lf; unfold val; rewrite ?elog_0; auto.
Qed.
Lemma qgamma_val p k th : incgamma_inv_spec S -> 0 < eps -> 0 < k -> eps <= th -> 0 < p < 1 ->
  exists q, qgamma (N:=NS) (Fin p) (Fin k) (Fin th) = Fin q /\ 0 < q /\ gamma_cdf k th q = p.
Proof.
  intros HI He Hk Ht Hp. destruct (HI k p Hk Hp) as (z & Ez & Hz & Hq). exists (th * z).
  unfold qgamma, qgamma_compute. un_cls. rewrite Ez. er_arith. rdecide. repeat split; [nra|].
  unfold gamma_cdf. replace (th * z / th) with z by (field; lra). auto.
Qed.
Definition gamma_G k th x := if Rlt_dec x eps then 0 else gamma_cdf k th x.
Lemma pgamma_like k th : incgamma_spec S -> 0 < eps -> 0 < k -> eps <= th ->
  cdf_like (fun x => pgamma (N:=NS) x (Fin k) (Fin th) false) (gamma_G k th).
Proof.
  intros HI He Hk Ht.
  assert (P : forall x, eps <= x -> 0 < gamma_cdf k th x < 1) by (intros; apply gamma_cdf_pos; lra).
  repeat split.
  - intros x. unfold gamma_G. destruct Rlt_dec; [rewrite pgamma_low|rewrite pgamma_val]; auto; lra.
  - rewrite pgamma_below by (lra || reflexivity). reflexivity.
  - rewrite pgamma_above by lra. reflexivity.
  - unfold gamma_G. destruct Rlt_dec; [lra|]. left. apply P. lra.
  - unfold gamma_G. destruct Rlt_dec; [lra|]. left. apply P. lra.
  - intros x y Hxy. unfold gamma_G. destruct (Rlt_dec x eps), (Rlt_dec y eps); try lra.
    + left. apply P. lra.
    + destruct Hxy as [Hxy| ->]; [|lra]. left. apply gamma_cdf_slt; lra.
Qed.
Lemma pgamma_density k th x : lgamma_spec S -> incgamma_spec S -> 0 < eps -> 0 < k -> eps <= th -> eps < x ->
  density_of (fun y => pgamma (N:=NS) y (Fin k) (Fin th) false)
    (fun y => dgamma (N:=NS) y (Fin k) (Fin th) false) x.
Proof.
  intros. apply (density_of_intro _ _ (gamma_cdf k th) x (gamma_pdf k th x)).
  - apply (locally_gt _ eps); auto. intros. rewrite pgamma_val by (auto; lra). reflexivity.
  - rewrite dgamma_val by (auto; lra). reflexivity.
  - apply gamma_cdf_derive; lra.
Qed.
Lemma pgamma_density_bad k th x : lgamma_spec S -> 0 < eps -> 0 < k -> eps <= th -> 0 < x < eps ->
  ~ density_of (fun y => pgamma (N:=NS) y (Fin k) (Fin th) false)
    (fun y => dgamma (N:=NS) y (Fin k) (Fin th) false) x.
Proof.
  intros HL He Hk Ht Hx. apply (density_bad _ _ x (gamma_pdf k th x)).
  - apply (locally_lt _ eps); [lra|]. intros. now rewrite pgamma_low by lra.
  - rewrite dgamma_val by (auto; lra). reflexivity.
  - now apply gamma_pdf_pos.
Qed.
Lemma pgamma_qgamma k th p : incgamma_spec S -> incgamma_inv_spec S -> 0 < eps -> 0 < k -> eps <= th -> 0 < p < 1 ->
  Ele (Fin eps) (qgamma (N:=NS) (Fin p) (Fin k) (Fin th)) ->
  pgamma (N:=NS) (qgamma (N:=NS) (Fin p) (Fin k) (Fin th)) (Fin k) (Fin th) false = Fin p.
Proof.
  intros HI HV He Hk Ht Hp. destruct (qgamma_val p k th) as (q & -> & Hq0 & Hq); auto.
  intros H. apply Ele_Fin in H. rewrite pgamma_val by auto. unfold val. now rewrite Hq.
Qed.
Lemma qgamma_pgamma k th x : incgamma_spec S -> incgamma_inv_spec S -> 0 < eps -> 0 < k -> eps <= th -> eps <= x ->
  qgamma (N:=NS) (pgamma (N:=NS) (Fin x) (Fin k) (Fin th) false) (Fin k) (Fin th) = Fin x.
Proof.
  intros HI HV He Hk Ht Hx. rewrite pgamma_val by auto. unfold val.
  destruct (qgamma_val (gamma_cdf k th x) k th) as (q & -> & Hq0 & Hq); auto.
  { apply gamma_cdf_pos; lra. }
  f_equal. destruct (Rtotal_order q x) as [L|[->|L]]; auto;
    apply (gamma_cdf_slt k th) in L; lra.
Qed.
Lemma qgamma_like k th : incgamma_inv_spec S -> 0 < eps -> 0 < k -> eps <= th ->
  quantile_like (fun p => qgamma (N:=NS) p (Fin k) (Fin th)) (Fin 0) PInf.
Proof.
  intros HI He Hk Ht. apply (qf_like_inv _ (gamma_cdf k th) _ _ (fun x => 0 < x)); try reflexivity.
  - unfold qgamma. un_cls. er_arith. rdecide. reflexivity.
  - unfold qgamma. un_cls. er_arith. rdecide. reflexivity.
  - apply Ele_Fin. lra.
  - intros p Hp. destruct (qgamma_val p k th) as (q & E & H); auto. eauto.
  - intros x Hx. split; [|reflexivity]. apply Ele_Fin. lra.
  - intros. apply gamma_cdf_slt; lra.
Qed.

(** ** Chi-squared *)
Lemma dchisq_val x n lf : lgamma_spec S -> 0 < n -> 0 < x ->
  dchisq (N:=NS) (Fin x) (Fin n) lf = val lf (chisq_pdf n x).
Proof.
  intros HL Hn Hx. unfold dchisq, dchisq_compute. un_cls. er_arith. rewrite HL by lra. er_arith. rdecide.
  apply expval. unfold chisq_pdf. replace (1 / 2 * n) with (n / 2) by field.
  pose proof (Gam_pos (n / 2) ltac:(lra)).
  rewrite !exp_minus, exp_plus, exp_minus, exp_Ropp, exp_ln by auto.
  rewrite <- !Rpower_exp_ln by lra. unfold Rdiv at 1. rewrite <- exp_Ropp.
  replace (- x / 2) with (- (x / 2)) by field.
  pose proof (Rpower_nz 2 (n / 2)). field. split; lra.
Qed.
Lemma pchisq_val x n lf : incgamma_spec S -> 0 < eps -> 0 < n -> eps <= x ->
  pchisq (N:=NS) (Fin x) (Fin n) lf = val lf (chisq_cdf n x).
Proof.
  intros HI He Hn Hx. unfold pchisq, pchisq_compute. un_cls. er_arith.
  rewrite HI by lra. rdecide. destruct lf; reflexivity.
Qed.
Lemma pchisq_low x n lf : 0 <= n -> x < eps ->
  pchisq (N:=NS) (Fin x) (Fin n) lf = val lf 0.
Proof.
  intros. unfold pchisq. un_cls. er_arith. rdecide. destruct lf; unfold val; rewrite ?elog_0; auto.
Qed.
Lemma qchisq_val p n : incgamma_inv_spec S -> 0 < n -> 0 < p < 1 ->
  exists q, qchisq (N:=NS) (Fin p) (Fin n) = Fin q /\ 0 < q /\ chisq_cdf n q = p.
Proof.
  intros HI Hn Hp. destruct (HI (n / 2) p ltac:(lra) Hp) as (z & Ez & Hz & Hq). exists (2 * z).
  unfold qchisq, qchisq_compute. un_cls. er_arith. rewrite Ez. er_arith. rdecide. repeat split; [lra|].
  unfold chisq_cdf. replace (2 * z / 2) with z by field. auto.
Qed.
Definition chisq_G n x := if Rlt_dec x eps then 0 else chisq_cdf n x.
Lemma pchisq_like n : incgamma_spec S -> 0 < eps -> 0 < n ->
  cdf_like (fun x => pchisq (N:=NS) x (Fin n) false) (chisq_G n).
Proof.
  intros HI He Hn.
  assert (P : forall x, eps <= x -> 0 < chisq_cdf n x < 1) by (intros; apply gamma_cdf_pos; lra).
  repeat split.
  - intros x. unfold chisq_G. destruct Rlt_dec; [rewrite pchisq_low|rewrite pchisq_val]; auto; lra.
  - rewrite pchisq_below by (lra || reflexivity). reflexivity.
  - rewrite pchisq_above by lra. reflexivity.
  - unfold chisq_G. destruct Rlt_dec; [lra|]. left. apply P. lra.
  - unfold chisq_G. destruct Rlt_dec; [lra|]. left. apply P. lra.
  - intros x y Hxy. unfold chisq_G. destruct (Rlt_dec x eps), (Rlt_dec y eps); try lra.
    + left. apply P. lra.
    + destruct Hxy as [Hxy| ->]; [|lra]. left. rewrite !chisq_gamma_cdf. apply gamma_cdf_slt; lra.
Qed.
Lemma pchisq_density n x : lgamma_spec S -> incgamma_spec S -> 0 < eps -> 0 < n -> eps < x ->
  density_of (fun y => pchisq (N:=NS) y (Fin n) false) (fun y => dchisq (N:=NS) y (Fin n) false) x.
Proof.
  intros. apply (density_of_intro _ _ (chisq_cdf n) x (chisq_pdf n x)).
  - apply (locally_gt _ eps); auto. intros. rewrite pchisq_val by (auto; lra). reflexivity.
  - rewrite dchisq_val by (auto; lra). reflexivity.
  - apply (gamma_cdf_derive (n / 2) 2); lra.
Qed.
Lemma pchisq_density_bad n x : lgamma_spec S -> 0 < eps -> 0 < n -> 0 < x < eps ->
  ~ density_of (fun y => pchisq (N:=NS) y (Fin n) false) (fun y => dchisq (N:=NS) y (Fin n) false) x.
Proof.
  intros HL He Hn Hx. apply (density_bad _ _ x (chisq_pdf n x)).
  - apply (locally_lt _ eps); [lra|]. intros. now rewrite pchisq_low by lra.
  - rewrite dchisq_val by (auto; lra). reflexivity.
  - rewrite chisq_gamma_pdf. apply gamma_pdf_pos; lra.
Qed.
Lemma pchisq_qchisq n p : incgamma_spec S -> incgamma_inv_spec S -> 0 < eps -> 0 < n -> 0 < p < 1 ->
  Ele (Fin eps) (qchisq (N:=NS) (Fin p) (Fin n)) ->
  pchisq (N:=NS) (qchisq (N:=NS) (Fin p) (Fin n)) (Fin n) false = Fin p.
Proof.
  intros HI HV He Hn Hp. destruct (qchisq_val p n) as (q & -> & Hq0 & Hq); auto.
  intros H. apply Ele_Fin in H. rewrite pchisq_val by auto. unfold val. now rewrite Hq.
Qed.
Lemma qchisq_pchisq n x : incgamma_spec S -> incgamma_inv_spec S -> 0 < eps -> 0 < n -> eps <= x ->
  qchisq (N:=NS) (pchisq (N:=NS) (Fin x) (Fin n) false) (Fin n) = Fin x.
Proof.
  intros HI HV He Hn Hx. rewrite pchisq_val by auto. unfold val.
  destruct (qchisq_val (chisq_cdf n x) n) as (q & -> & Hq0 & Hq); auto.
  { apply gamma_cdf_pos; lra. }
  f_equal. rewrite !chisq_gamma_cdf in Hq. destruct (Rtotal_order q x) as [L|[->|L]]; auto;
    apply (gamma_cdf_slt (n / 2) 2) in L; lra.
Qed.
Lemma qchisq_like n : incgamma_inv_spec S -> 0 < n ->
  quantile_like (fun p => qchisq (N:=NS) p (Fin n)) (Fin 0) PInf.
Proof.
  intros HI Hn. apply (qf_like_inv _ (chisq_cdf n) _ _ (fun x => 0 < x)); try reflexivity.
  - unfold qchisq. un_cls. er_arith. rdecide. reflexivity.
  - unfold qchisq. un_cls. er_arith. rdecide. reflexivity.
  - apply Ele_Fin. lra.
  - intros p Hp. destruct (qchisq_val p n) as (q & E & H); auto. eauto.
  - intros x Hx. split; [|reflexivity]. apply Ele_Fin. lra.
  - intros. rewrite !chisq_gamma_cdf. apply gamma_cdf_slt; lra.
Qed.

(** ** Inverse gamma.  The CDF calls [pgamma] with argument 1/x and scale 1/rate
    (pinvgamma.ipp 34-69), so it inherits both epsilon tests. *)
Lemma dinvgamma_val x a b lf : lgamma_spec S -> 0 < a -> 0 < b -> 0 < x ->
  dinvgamma (N:=NS) (Fin x) (Fin a) (Fin b) lf = val lf (invgamma_pdf a b x).
Proof.
  intros HL Ha Hb Hx. unfold dinvgamma, dinvgamma_log_compute. un_cls. rewrite HL by auto. er_arith. rdecide.
  apply expval. unfold invgamma_pdf. pose proof (Gam_pos a Ha).
  rewrite !exp_minus, !exp_plus, exp_Ropp, exp_ln by auto.
  rewrite <- !Rpower_exp_ln by lra. unfold Rdiv at 1. rewrite <- exp_Ropp.
  replace (- b / x) with (- (b / x)) by (field; lra). field. lra.
Qed.
Lemma inv_ge x : 0 < eps -> 0 < x -> x <= / eps -> eps <= 1 / x.
Proof.
  intros He Hx H. unfold Rdiv. rewrite Rmult_1_l. rewrite <- (Rinv_inv eps) by lra.
  apply Rinv_le_contravar; auto.
Qed.
Lemma inv_lt x : 0 < eps -> / eps < x -> 1 / x < eps.
Proof.
  intros He H. unfold Rdiv. rewrite Rmult_1_l. rewrite <- (Rinv_inv eps) by lra.
  pose proof (Rinv_0_lt_compat eps He). apply Rinv_lt_contravar; auto. nra.
Qed.
Lemma pinvgamma_val x a b lf : incgamma_spec S -> 0 < eps -> 0 < a -> 0 < b <= / eps -> 0 < x <= / eps ->
  pinvgamma (N:=NS) (Fin x) (Fin a) (Fin b) lf = val lf (invgamma_cdf a b x).
Proof.
  intros HI He Ha Hb Hx. unfold pinvgamma, pinvgamma_limit_vals, pinvgamma_compute.
  pose proof (inv_ge b He ltac:(lra) ltac:(lra)). pose proof (inv_ge x He ltac:(lra) ltac:(lra)).
  un_cls. er_red. er_arith. rdecide. er_arith. refold S.
  rewrite pgamma_val by auto. unfold val at 1. er_arith. unfold gamma_cdf, invgamma_cdf.
  replace (1 / x / (1 / b)) with (b / x) by (field; lra). destruct lf; reflexivity.
Qed.
Lemma pinvgamma_high x a b lf : 0 < eps -> 0 < a -> 0 < b <= / eps -> / eps < x ->
  pinvgamma (N:=NS) (Fin x) (Fin a) (Fin b) lf = val lf 1.
Proof.
  intros He Ha Hb Hx. unfold pinvgamma, pinvgamma_limit_vals, pinvgamma_compute.
  pose proof (Rinv_0_lt_compat eps He).
  pose proof (inv_ge b He ltac:(lra) ltac:(lra)). pose proof (inv_lt x He ltac:(lra)).
  un_cls. er_red. er_arith. rdecide. er_arith. refold S.
  rewrite pgamma_low by lra. unfold val at 1. er_arith. destruct lf; unfold val; rewrite ?elog_F by lra;
    repeat f_equal; lra.
Qed.
Lemma pinvgamma_low x a b lf : 0 < eps -> 0 < a -> 0 < b <= / eps -> x <= 0 ->
  pinvgamma (N:=NS) (Fin x) (Fin a) (Fin b) lf = val lf 0.
Proof.
  intros He Ha Hb Hx. rewrite pinvgamma_below; auto; try lra.
  - destruct lf; unfold val, zero_form; rewrite ?elog_0; auto.
  - now apply inv_ge.
  - now apply Ele_Fin.
Qed.
Lemma qinvgamma_val p a b : incgamma_inv_spec S -> 0 < a -> 0 < b -> 0 < p < 1 ->
  exists q, qinvgamma (N:=NS) (Fin p) (Fin a) (Fin b) = Fin q /\ 0 < q /\ invgamma_cdf a b q = p.
Proof.
  intros HI Ha Hb Hp. destruct (HI a (1 - p) Ha ltac:(lra)) as (z & Ez & Hz & Hq). exists (b / z).
  unfold qinvgamma, qinvgamma_compute. un_cls. er_arith. rewrite Ez. er_arith. rdecide.
  repeat split; [now apply Rdiv_lt_0_compat|].
  unfold invgamma_cdf. replace (b / (b / z)) with z by (field; lra). lra.
Qed.
Definition invgamma_G a b x :=
  if Rle_dec x 0 then 0 else if Rle_dec x (/ eps) then invgamma_cdf a b x else 1.
Lemma pinvgamma_like a b : incgamma_spec S -> 0 < eps -> 0 < a -> 0 < b <= / eps ->
  cdf_like (fun x => pinvgamma (N:=NS) x (Fin a) (Fin b) false) (invgamma_G a b).
Proof.
  intros HI He Ha Hb. pose proof (inv_ge b He ltac:(lra) ltac:(lra)).
  assert (P : forall x, 0 < x -> 0 < invgamma_cdf a b x < 1) by (intros; apply invgamma_cdf_pos; lra).
  repeat split.
  - intros x. unfold invgamma_G. destruct Rle_dec; [now rewrite pinvgamma_low|].
    destruct Rle_dec; [rewrite pinvgamma_val|rewrite pinvgamma_high]; auto; lra.
  - rewrite pinvgamma_below by (lra || reflexivity). reflexivity.
  - rewrite pinvgamma_above by lra. reflexivity.
  - unfold invgamma_G. destruct Rle_dec; [lra|]. destruct Rle_dec; [|lra]. left. apply P. lra.
  - unfold invgamma_G. destruct Rle_dec; [lra|]. destruct Rle_dec; [|lra]. left. apply P. lra.
  - intros x y Hxy. unfold invgamma_G.
    destruct (Rle_dec x 0), (Rle_dec y 0), (Rle_dec x (/ eps)), (Rle_dec y (/ eps)); try lra;
      try (left; apply P; lra).
    destruct Hxy as [Hxy| ->]; [|lra]. left. apply invgamma_cdf_slt; lra.
Qed.
Lemma pinvgamma_density a b x : lgamma_spec S -> incgamma_spec S -> 0 < eps -> 0 < a -> 0 < b <= / eps ->
  0 < x < / eps ->
  density_of (fun y => pinvgamma (N:=NS) y (Fin a) (Fin b) false)
    (fun y => dinvgamma (N:=NS) y (Fin a) (Fin b) false) x.
Proof.
  intros. apply (density_of_intro _ _ (invgamma_cdf a b) x (invgamma_pdf a b x)).
  - apply (locally_between _ 0 (/ eps)); auto. intros. rewrite pinvgamma_val by (auto; lra). reflexivity.
  - rewrite dinvgamma_val by (auto; lra). reflexivity.
  - apply invgamma_cdf_derive; lra.
Qed.
(** beyond 1/eps the returned CDF is 1 while the density is positive *)
Lemma pinvgamma_density_bad a b x : lgamma_spec S -> 0 < eps -> 0 < a -> 0 < b <= / eps -> / eps < x ->
  ~ density_of (fun y => pinvgamma (N:=NS) y (Fin a) (Fin b) false)
    (fun y => dinvgamma (N:=NS) y (Fin a) (Fin b) false) x.
Proof.
  intros HL He Ha Hb Hx (G & g & HG & Hg & Hd). pose proof (Rinv_0_lt_compat eps He).
  rewrite dinvgamma_val in Hg by (auto; lra). injection Hg as Hg.
  pose proof (invgamma_pdf_pos a b Ha x) as Hp.
  assert (H0 : is_derive (fun _ : R => 1) x g).
  { apply (is_derive_ext_loc G); auto.
    assert (locally x (fun y => pinvgamma (N:=NS) (Fin y) (Fin a) (Fin b) false = Fin 1)) as H0.
    { apply (locally_gt _ (/ eps)); [lra|]. intros y Hy. now rewrite pinvgamma_high. }
    generalize (filter_and _ _ HG H0). apply filter_imp. intros y [A B]. congruence. }
  pose proof (is_derive_unique _ _ _ H0) as H1. rewrite Derive_const in H1. lra.
Qed.
Lemma pinvgamma_qinvgamma a b p : incgamma_spec S -> incgamma_inv_spec S -> 0 < eps -> 0 < a -> 0 < b <= / eps ->
  0 < p < 1 -> Ele (qinvgamma (N:=NS) (Fin p) (Fin a) (Fin b)) (Fin (/ eps)) ->
  pinvgamma (N:=NS) (qinvgamma (N:=NS) (Fin p) (Fin a) (Fin b)) (Fin a) (Fin b) false = Fin p.
Proof.
  intros HI HV He Ha Hb Hp. destruct (qinvgamma_val p a b) as (q & -> & Hq0 & Hq); auto; [lra|].
  intros H. apply Ele_Fin in H. rewrite pinvgamma_val by auto. unfold val. now rewrite Hq.
Qed.
Lemma qinvgamma_pinvgamma a b x : incgamma_spec S -> incgamma_inv_spec S -> 0 < eps -> 0 < a -> 0 < b <= / eps ->
  0 < x <= / eps ->
  qinvgamma (N:=NS) (pinvgamma (N:=NS) (Fin x) (Fin a) (Fin b) false) (Fin a) (Fin b) = Fin x.
Proof.
  intros HI HV He Ha Hb Hx. rewrite pinvgamma_val by auto. unfold val.
  destruct (qinvgamma_val (invgamma_cdf a b x) a b) as (q & -> & Hq0 & Hq); auto; [lra| |].
  { apply invgamma_cdf_pos; lra. }
  f_equal. destruct (Rtotal_order q x) as [L|[->|L]]; auto;
    apply (invgamma_cdf_slt a b) in L; lra.
Qed.
Lemma qinvgamma_like a b : incgamma_inv_spec S -> 0 < a -> 0 < b ->
  quantile_like (fun p => qinvgamma (N:=NS) p (Fin a) (Fin b)) (Fin 0) PInf.
Proof.
  intros HI Ha Hb. apply (qf_like_inv _ (invgamma_cdf a b) _ _ (fun x => 0 < x)); try reflexivity.
  - unfold qinvgamma. un_cls. er_arith. rdecide. reflexivity.
  - unfold qinvgamma. un_cls. er_arith. rdecide. reflexivity.
  - apply Ele_Fin. lra.
  - intros p Hp. destruct (qinvgamma_val p a b) as (q & E & H); auto. eauto.
  - intros x Hx. split; [|reflexivity]. apply Ele_Fin. lra.
  - intros. apply invgamma_cdf_slt; lra.
Qed.
End S.
