(** quant/qt.ipp: what Hill's approximation does below 1/2 degrees of freedom, at the
    median, and on the two sides of the median. *)
From Coq Require Import Reals ZArith QArith Bool Lra Lia.
From Verif Require Import Num Sanity ER ERTac Prob Dens Quant Spec SpecER ClosedElem RealElem
  LogForm Support Elem Norm NormR SpecSF QtR FamB Witness WitnessSF.
Local Open Scope R_scope.

Lemma eadd_N_r x : eadd x NaN = NaN. Proof. destruct x; reflexivity. Qed.
Lemma esub_N_r x : esub x NaN = NaN. Proof. destruct x; reflexivity. Qed.
Lemma emul_N_r x : emul x NaN = NaN. Proof. destruct x; reflexivity. Qed.
Lemma ediv_N_r x : ediv x NaN = NaN. Proof. destruct x; reflexivity. Qed.
Lemma eadd_N_l x : eadd NaN x = NaN. Proof. reflexivity. Qed.
Lemma esub_N_l x : esub NaN x = NaN. Proof. reflexivity. Qed.
Lemma emul_N_l x : emul NaN x = NaN. Proof. reflexivity. Qed.
Lemma ediv_N_l x : ediv NaN x = NaN. Proof. reflexivity. Qed.
Ltac nans := repeat first [ rewrite eadd_N_r | rewrite esub_N_r | rewrite emul_N_r | rewrite ediv_N_r
  | rewrite eadd_N_l | rewrite esub_N_l | rewrite emul_N_l | rewrite ediv_N_l ].

Section S.
Variable S : SF.
Notation NS := (ER_Num S).
Notation eps := (sf_eps S).

Lemma qt_loop_nan n p dof x : qt_y_2_loop (N:=NS) n p dof NaN x = NaN.
Proof. revert x. induction n; intros x; cbn [qt_y_2_loop]; unfold qt_y_2_val_update; un_cls; nans; auto. Qed.
Lemma qt_y_2_nan p y dof : qt_y_2 (N:=NS) p y dof NaN = NaN.
Proof.
  unfold qt_y_2, qt_y_2_mterm, qt_y_2_begin. un_cls. nans. cbn [esqrt]. refold S. apply qt_loop_nan.
Qed.
Lemma qt_y_1_nan x dof a b c : qt_y_1 (N:=NS) x dof a b c NaN = NaN.
Proof. unfold qt_y_1. un_cls. nans. cbn [eltb eexpm1]. nans. reflexivity. Qed.
Lemma qt_choose_nan p y dof a b c : qt_choose (N:=NS) p y dof a b c NaN = NaN.
Proof.
  unfold qt_choose. rewrite qt_y_2_nan, qt_y_1_nan. un_cls. nans. cbn [esqrt]. destruct (eltb _ _); auto.
Qed.
Lemma qt_coef_d_nan dof b c : dof < 1 / 2 ->
  qt_coef_d (N:=NS) (Fin dof) (qt_coef_a (N:=NS) (Fin dof)) b c = NaN.
Proof.
  intros H. unfold qt_coef_d, qt_coef_a. un_cls. er_arith.
  assert (N : 1 / (dof - 1 / 2) < 0).
  { unfold Rdiv. rewrite Rmult_1_l. apply Rinv_lt_0_compat. lra. }
  unfold esqrt. destruct Rlt_dec; [|contradiction]. nans. reflexivity.
Qed.
Lemma qt_small_dof p dof : 0 < eps -> eps <= dof < 1 / 2 -> 0 < p < 1 ->
  qt (N:=NS) (Fin p) (Fin dof) = NaN.
Proof.
  intros He Hd Hp.
  assert (M : forall q, qt_main_iter (N:=NS) q (Fin dof) = NaN).
  { intros q. unfold qt_main_iter, qt_finish. rewrite qt_coef_d_nan by lra. apply qt_choose_nan. }
  unfold qt, qt_main. rewrite !M. un_cls. er_arith. rdecide. cbn [eeqb]. now destruct Rltb.
Qed.

(** dof = 3 *)
Lemma qt_3_side x : erf_inv_spec S -> 0 < eps <= 1 -> x = / 10 \/ x = - / 10 ->
  qt_main_iter (N:=NS) (Fin (2 * norm_cdf 0 1 x)) (Fin 3) =
  Fin (R_sqrt.sqrt (3 * qty4 (4 / 10 * qty2 x * qty2 x))).
Proof.
  intros HV He Hx. pose proof norm_cdf_tenth as B.
  assert (P : 2 / 5 <= norm_cdf 0 1 x <= 3 / 5).
  { destruct Hx as [-> | ->]; [|lra]. pose proof (norm_cdf_sym 0 1 (/ 10) ltac:(lra)) as E.
    rewrite Rminus_0_l, Rplus_0_l in E. lra. }
  assert (Q : qnorm_std (N:=NS) (Fin (1 / 2 * (2 * norm_cdf 0 1 x))) = Fin x).
  { unfold qnorm_std. destruct (qnorm_val S (1 / 2 * (2 * norm_cdf 0 1 x)) 0 1) as (q & E & H); auto; try lra.
    assert (q = x) by (apply (norm_cdf_inj 0 1); lra). subst q. exact E. }
  assert (A : qt_coef_a (N:=NS) (Fin 3) = Fin (2 / 5)) by (unfold qt_coef_a; un_cls; er_arith; f_equal; lra).
  assert (EB : qt_coef_b (N:=NS) (Fin (2 / 5)) = Fin 300) by (unfold qt_coef_b; un_cls; er_arith; f_equal; lra).
  assert (C : qt_coef_c (N:=NS) (Fin (2 / 5)) (Fin 300) = Fin (78696 / 1000)).
  { unfold qt_coef_c. un_cls. er_arith. f_equal. lra. }
  assert (D : qt_coef_d (N:=NS) (Fin 3) (Fin (2 / 5)) (Fin 300) (Fin (78696 / 1000)) = Fin qtd).
  { unfold qt_coef_d, qtd. un_cls. er_arith. reflexivity. }
  unfold qt_main_iter. rewrite A, EB, C, D. unfold qt_finish, qt_choose.
  assert (Y : qt_y_init (N:=NS) (Fin (2 * norm_cdf 0 1 x)) (Fin 3) (Fin qtd) =
    Fin (Rpower (qtd * (2 * norm_cdf 0 1 x)) (2 / 3))).
  { pose proof qtd_bounds. unfold qt_y_init. un_cls. er_arith. reflexivity. }
  rewrite Y. pose proof (qtd_y (2 * norm_cdf 0 1 x) ltac:(lra)) as Y1.
  assert (Y2 : qt_y_1 (N:=NS) (Fin x) (Fin 3) (Fin (2 / 5)) (Fin 300) (Fin (78696 / 1000)) (Fin qtd) =
    Fin (qty4 (4 / 10 * qty2 x * qty2 x))).
  { destruct qtc1_cmp as ((_ & c1) & c2 & c3).
    assert (H1 : 360 < qtc1 x) by (destruct Hx as [-> | ->]; lra).
    assert (H2 : 4 / 10 * qty2 x * qty2 x < 1 / 10) by (pose proof qty2_cmp; destruct Hx as [-> | ->]; lra).
    unfold qt_y_1, qt_coef_c_update. un_cls. er_arith. rdecide. er_arith.
    match goal with |- context [ediv _ (Fin ?c)] => replace c with (qtc1 x) by (unfold qtc1; lra) end.
    rewrite ediv_F by lra. er_arith.
    match goal with |- context [Rltb (1 / 10) ?c] => replace c with (4 / 10 * qty2 x * qty2 x) by (unfold qty2; field; lra) end.
    rdecide. er_arith. reflexivity. }
  un_cls. refold S. er_arith.
  rewrite (proj2 (Rltb_true _ _)) by lra. fold (qnorm_std (N:=NS)).
  replace (IZR 1 / IZR (Z.pos 2) * (2 * norm_cdf 0 1 x)) with (1 / 2 * (2 * norm_cdf 0 1 x)) by reflexivity.
  rewrite Q, Y2. er_arith. rewrite esqrt_F; [reflexivity|].
  assert (0 <= 4 / 10 * qty2 x * qty2 x) by nra. unfold qty4. set (y := 4 / 10 * _ * _) in *. nra.
Qed.
Lemma qt_3_not_sym : erf_inv_spec S -> 0 < eps <= 1 ->
  qt (N:=NS) (Fin (1 - norm_cdf 0 1 (- / 10))) (Fin 3) <>
  eneg (qt (N:=NS) (Fin (norm_cdf 0 1 (- / 10))) (Fin 3)).
Proof.
  intros HV He. pose proof norm_cdf_tenth as B.
  assert (E : 1 - norm_cdf 0 1 (- / 10) = norm_cdf 0 1 (/ 10)).
  { pose proof (norm_cdf_sym 0 1 (/ 10) ltac:(lra)) as E. rewrite Rminus_0_l, Rplus_0_l in E. lra. }
  rewrite E.
  assert (E1 : qt (N:=NS) (Fin (norm_cdf 0 1 (/ 10))) (Fin 3) =
     Fin (R_sqrt.sqrt (3 * qty4 (4 / 10 * qty2 (/ 10) * qty2 (/ 10))))).
  { rewrite <- qt_3_side by auto. unfold qt, qt_main. un_cls. er_arith. rdecide. cbn [eeqb]. rdecide. reflexivity. }
  assert (E2 : qt (N:=NS) (Fin (norm_cdf 0 1 (- / 10))) (Fin 3) =
     Fin (- R_sqrt.sqrt (3 * qty4 (4 / 10 * qty2 (- / 10) * qty2 (- / 10))))).
  { pose proof (qt_3_side (- / 10) HV He ltac:(auto)) as H. unfold qt, qt_main. un_cls. er_arith. rdecide. cbn [eeqb]. rdecide.
    etransitivity; [apply (f_equal eneg H)|reflexivity]. }
  rewrite E1, E2, eneg_F, Ropp_involutive. intros [= H].
  destruct qty2_cmp as (P & L & _).
  pose proof (qty4_slt _ _ (Rlt_le _ _ P) L) as L4.
  set (a := 4 / 10 * qty2 (- / 10) * _) in *. set (b := 4 / 10 * qty2 (/ 10) * _) in *.
  assert (Ha : 0 <= qty4 a). { unfold qty4. nra. }
  apply sqrt_inj in H; lra.
Qed.
End S.

Lemma qt_sym_refuted : exists (S : SF) p dof, erf_inv_spec S /\ 0 < sf_eps S /\ 0 < p < 1 /\ sf_eps S <= dof /\
  qt (N:=ER_Num S) (Fin (1 - p)) (Fin dof) <> eneg (qt (N:=ER_Num S) (Fin p) (Fin dof)).
Proof.
  exists SFR, (norm_cdf 0 1 (- / 10)), 3. pose proof norm_cdf_tenth.
  repeat split; try ex_sf; try lra. apply qt_3_not_sym; ex_sf.
Qed.
Lemma qt_nan_refuted : exists (S : SF) p dof, 0 < sf_eps S /\ 0 < p < 1 /\ sf_eps S <= dof /\
  qt (N:=ER_Num S) (Fin p) (Fin dof) = NaN.
Proof.
  exists SFR, (1 / 3), (1 / 4). repeat split; try ex_sf; try lra. apply qt_small_dof; try ex_sf; lra.
Qed.
