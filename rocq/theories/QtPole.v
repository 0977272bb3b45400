(** quant/qt.ipp above the median: qt_int_main_iter is called with 2p there, so the argument of the
    normal quantile is positive and the corrected coef_c of stage 1 has a zero.  With 3 degrees of
    freedom the result is infinite at a probability below 1, and finite again above it. *)
From Coq Require Import Reals ZArith QArith Bool Lra Lia.
From Verif Require Import Num Sanity ER ERTac Prob Dens Quant Spec SpecER ClosedElem RealElem
  LogForm Support Elem Norm NormR SpecSF QtR QtBad FamB Witness WitnessSF.
Local Open Scope R_scope.

Lemma qtc1_4 : qtc1 4 < -20.
Proof. pose proof qtd_bounds. unfold qtc1. lra. Qed.
Lemma qtc1_3 : 100 < qtc1 3.
Proof. pose proof qtd_bounds. unfold qtc1. lra. Qed.
Lemma qtc1_cont : continuity qtc1.
Proof. unfold qtc1. intros x. reg. Qed.
Lemma qtc1_root : exists x, 3 < x < 4 /\ qtc1 x = 0.
Proof.
  pose proof qtc1_3. pose proof qtc1_4.
  destruct (IVT_cor qtc1 3 4 qtc1_cont ltac:(lra) ltac:(nra)) as (x & Hx & E).
  exists x. split; [|exact E]. split; destruct Hx as [[H1|<-] [H2|He]]; try subst x; try (destruct He); lra.
Qed.

Section S.
Variable S : SF.
Notation NS := (ER_Num S).
Notation eps := (sf_eps S).

Lemma qt_3_iter x : erf_inv_spec S -> 0 < eps <= 1 -> 0 < x ->
  qt (N:=NS) (Fin (norm_cdf 0 1 x)) (Fin 3) =
  esqrt (emul (Fin 3) (qt_y_1 (N:=NS) (Fin x) (Fin 3) (Fin (2 / 5)) (Fin 300) (Fin (78696 / 1000)) (Fin qtd))).
Proof.
  intros HV He Hx.
  assert (P : 1 / 2 < norm_cdf 0 1 x < 1).
  { rewrite <- norm_cdf_0. split; [apply norm_cdf_smono; lra|]. apply norm_cdf_range; lra. }
  assert (Q : qnorm_std (N:=NS) (Fin (1 / 2 * (2 * norm_cdf 0 1 x))) = Fin x).
  { unfold qnorm_std. destruct (qnorm_val S (1 / 2 * (2 * norm_cdf 0 1 x)) 0 1) as (q & E & H); auto; try lra.
    assert (q = x) by (apply (norm_cdf_inj 0 1); lra). subst q. exact E. }
  assert (A : qt_coef_a (N:=NS) (Fin 3) = Fin (2 / 5)) by (unfold qt_coef_a; un_cls; er_arith; f_equal; lra).
  assert (EB : qt_coef_b (N:=NS) (Fin (2 / 5)) = Fin 300) by (unfold qt_coef_b; un_cls; er_arith; f_equal; lra).
  assert (C : qt_coef_c (N:=NS) (Fin (2 / 5)) (Fin 300) = Fin (78696 / 1000)).
  { unfold qt_coef_c. un_cls. er_arith. f_equal. lra. }
  assert (D : qt_coef_d (N:=NS) (Fin 3) (Fin (2 / 5)) (Fin 300) (Fin (78696 / 1000)) = Fin qtd).
  { unfold qt_coef_d, qtd. un_cls. er_arith. reflexivity. }
  assert (Y : qt_y_init (N:=NS) (Fin (2 * norm_cdf 0 1 x)) (Fin 3) (Fin qtd) =
    Fin (Rpower (qtd * (2 * norm_cdf 0 1 x)) (2 / 3))).
  { pose proof qtd_bounds. unfold qt_y_init. un_cls. er_arith. reflexivity. }
  pose proof (qtd_y (2 * norm_cdf 0 1 x) ltac:(lra)) as Y1.
  assert (M : qt_main_iter (N:=NS) (Fin (2 * norm_cdf 0 1 x)) (Fin 3) =
    esqrt (emul (Fin 3) (qt_y_1 (N:=NS) (Fin x) (Fin 3) (Fin (2 / 5)) (Fin 300) (Fin (78696 / 1000)) (Fin qtd)))).
  { unfold qt_main_iter. rewrite A, EB, C, D. unfold qt_finish, qt_choose. rewrite Y.
    set (yy := qt_y_1 (N:=NS) (Fin x)) in *.
    un_cls. refold S. er_arith. rewrite (proj2 (Rltb_true _ _)) by lra. fold (qnorm_std (N:=NS)).
    replace (IZR 1 / IZR (Z.pos 2) * (2 * norm_cdf 0 1 x)) with (1 / 2 * (2 * norm_cdf 0 1 x)) by reflexivity.
    rewrite Q. reflexivity. }
  rewrite <- M. unfold qt, qt_main. un_cls. er_arith. rdecide. cbn [eeqb]. rdecide. reflexivity.
Qed.

(** the value at the zero of the corrected coef_c *)
Lemma qt_3_inf x : erf_inv_spec S -> 0 < eps <= 1 -> 3 < x < 4 -> qtc1 x = 0 ->
  qt (N:=NS) (Fin (norm_cdf 0 1 x)) (Fin 3) = PInf.
Proof.
  intros HV He Hx H0. rewrite qt_3_iter by (auto; lra).
  replace (qt_y_1 (N:=NS) _ _ _ _ _ _) with PInf; [rewrite emul_pos_P by lra; reflexivity|].
  unfold qt_y_1, qt_coef_c_update. un_cls. er_arith. rdecide. er_arith.
  match goal with |- context [ediv (Fin ?n) (Fin ?c)] =>
    assert (Hn : 0 < n) by nra; replace c with 0 by (unfold qtc1 in H0; lra); set (nn := n) in * end.
  rewrite ediv_pos_0 by lra. cbn [esub].
  replace (ediv PInf (Fin 300)) with PInf by (cbn [ediv]; destruct Rlt_dec; [lra|reflexivity]).
  cbn [eadd]. rewrite emul_pos_P by lra. cbn [eadd]. rewrite !emul_pos_P by lra. cbn [emul eltb eexpm1]. reflexivity.
Qed.

(** where it is not zero the result is a number *)
Definition qtz x := 4 / 10 * qty2 x * qty2 x.
Definition qty x := if Rltb (1 / 10) (qtz x) then Rtrigo_def.exp (qtz x) - 1 else qty4 (qtz x).
Lemma qtz_ge0 x : 0 <= qtz x. Proof. unfold qtz. nra. Qed.
Lemma qty_ge x : qtz x <= qty x.
Proof.
  pose proof (qtz_ge0 x) as H. unfold qty. destruct Rltb.
  - pose proof (exp_ineq1_le (qtz x)). lra.
  - unfold qty4. nra.
Qed.
Lemma qt_3_fin x : erf_inv_spec S -> 0 < eps <= 1 -> 0 < x -> qtc1 x <> 0 ->
  qt (N:=NS) (Fin (norm_cdf 0 1 x)) (Fin 3) = Fin (R_sqrt.sqrt (3 * qty x)).
Proof.
  intros HV He Hx H0. rewrite qt_3_iter by (auto; lra).
  replace (qt_y_1 (N:=NS) _ _ _ _ _ _) with (Fin (qty x)).
  { rewrite emul_F, esqrt_F; [reflexivity|]. pose proof (qty_ge x). pose proof (qtz_ge0 x). lra. }
  unfold qt_y_1, qt_coef_c_update. un_cls. er_arith. rdecide. er_arith.
  replace (300 + (78696 / 1000 + 3 / 10 * (3 - 45 / 10) * (x + 6 / 10)) + x * (- (2) + x * (- (7) + x * (- (5) + 5 / 100 * x * qtd))))
    with (qtc1 x) by (unfold qtc1; lra).
  match goal with |- context [Rltb (1 / 10) ?c] => replace c with (qtz x) by (unfold qtz, qty2; field; lra) end.
  unfold qty. destruct (Rltb (1 / 10) (qtz x)); reflexivity.
Qed.

Lemma qt_3_not_mono : erf_inv_spec S -> 0 < eps <= 1 -> exists p1 p2 t, 0 < p1 < p2 /\ p2 < 1 /\
  qt (N:=NS) (Fin p1) (Fin 3) = PInf /\ qt (N:=NS) (Fin p2) (Fin 3) = Fin t.
Proof.
  intros HV He. destruct qtc1_root as (x & Hx & E).
  exists (norm_cdf 0 1 x), (norm_cdf 0 1 4), (R_sqrt.sqrt (3 * qty 4)).
  assert (0 < norm_cdf 0 1 x) by (apply norm_cdf_range; lra).
  assert (norm_cdf 0 1 4 < 1) by (apply norm_cdf_range; lra).
  assert (norm_cdf 0 1 x < norm_cdf 0 1 4) by (apply norm_cdf_smono; lra).
  repeat split; auto.
  - apply qt_3_inf; auto.
  - apply qt_3_fin; auto; try lra. pose proof qtc1_4. lra.
Qed.
Lemma qt_3_unbounded M : erf_inv_spec S -> 0 < eps <= 1 -> exists p t, norm_cdf 0 1 3 < p < norm_cdf 0 1 4 /\
  qt (N:=NS) (Fin p) (Fin 3) = Fin t /\ M < t.
Proof.
  intros HV He. set (c := 94 / (19 + 300 * (1 + Rabs M))).
  pose proof (Rabs_pos M) as HM. pose proof (Rle_abs M) as HA.
  assert (Hc : 0 < c < 1).
  { unfold c. split; [apply Rdiv_lt_0_compat; lra|]. apply (Rmult_lt_reg_r (19 + 300 * (1 + Rabs M))); [lra|].
    unfold Rdiv. rewrite Rmult_assoc, Rinv_l; lra. }
  pose proof qtc1_3 as H3. pose proof qtc1_4 as H4.
  destruct (IVT_cor (fun x => qtc1 x - c) 3 4) as (x & Hx & E).
  { intros y. apply continuity_pt_minus; [apply qtc1_cont|]. apply continuity_pt_const. now intros ? ?. }
  { lra. } { nra. }
  assert (Hx' : 3 < x < 4).
  { split; destruct Hx as [[H1|<-] [H2|Hq]]; try subst x; try lra. }
  clear Hx. assert (Ec : qtc1 x = c) by lra.
  exists (norm_cdf 0 1 x), (R_sqrt.sqrt (3 * qty x)).
  split; [split; apply norm_cdf_smono; lra|]. split; [apply qt_3_fin; auto; lra|].
  assert (Hi : 94 / c = 19 + 300 * (1 + Rabs M)) by (unfold c; field; lra).
  assert (H2 : Rabs M < qty2 x).
  { unfold qty2. rewrite Ec. set (n := x * x * _ + 945 / 10).
    assert (Hn : 94 <= n) by (unfold n; nra).
    assert (Hnc : 94 / c <= n / c).
    { apply Rmult_le_compat_r; [|exact Hn]. left. apply Rinv_0_lt_compat. lra. }
    assert (Rabs M + 1 <= 1 + (n / c - x * x - 3) / 300 ) by nra.
    nra. }
  pose proof (qty_ge x) as Hq. unfold qtz in Hq.
  apply Rle_lt_trans with (Rabs M); auto. apply Rlt_le_trans with (1 := H2).
  rewrite <- (sqrt_Rsqr (qty2 x)) by lra. apply sqrt_le_1_alt. unfold Rsqr. nra.
Qed.
End S.

Lemma qt_3_mono_refuted : exists (S : SF) dof p1 p2 t, erf_inv_spec S /\ 0 < sf_eps S <= dof /\
  0 < p1 < p2 /\ p2 < 1 /\ qt (N:=ER_Num S) (Fin p1) (Fin dof) = PInf /\ qt (N:=ER_Num S) (Fin p2) (Fin dof) = Fin t.
Proof.
  destruct (qt_3_not_mono SFR) as (p1 & p2 & t & H); try ex_sf.
  exists SFR, 3, p1, p2, t. split; [ex_sf|]. split; [split; ex_sf|]. exact H.
Qed.
