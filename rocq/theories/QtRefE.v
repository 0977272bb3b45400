(** Transport of the analysis of the Taylor refinement to the model of quant/qt.ipp. *)
From Coq Require Import Reals ZArith QArith Bool Lra Lia Psatz.
From Verif Require Import Num Sanity ER ERTac Prob Dens Quant Spec SpecER ClosedElem RealElem
  LogForm Support Elem Norm NormR SpecSF BetaFn GammaFn QtR FamR FamG FamB Witness WitnessSF SpecQt QtRefR.
Local Open Scope R_scope.

Section S.
Variable S : SF.
Notation NS := (ER_Num S).
Notation eps := (sf_eps S).

Lemma val_update_val v d x : 0 < d ->
  qt_y_2_val_update (N:=NS) (Fin v) (Fin d) (Fin x) =
  Fin (v + x * (1 + x * v * (1 + d) / (2 * (d + v * v)))).
Proof.
  intros Hd. assert (0 < d + v * v) by nra. unfold qt_y_2_val_update. un_cls. er_arith. reflexivity.
Qed.
Lemma loop_val n p d v x : lgamma_spec S -> incbeta_spec S -> 0 < eps -> eps <= d ->
  qt_y_2_loop (N:=NS) n (Fin p) (Fin d) (Fin v) (Fin x) =
  Fin (taylor_iter n d (1 - p) (v + x * (1 + x * v * (1 + d) / (2 * (d + v * v))))).
Proof.
  intros HL HI He Hd. revert v x. induction n as [|n IH]; intros v x; cbn [qt_y_2_loop taylor_iter];
    rewrite val_update_val by lra; auto.
  set (w := v + _). rewrite pt_val, dt_val by auto. unfold val.
  pose proof (t_pdf_pos d ltac:(lra) w). pose proof (t_den d ltac:(lra) w).
  replace (div (Num:=NS) _ _) with (Fin ((1 - t_cdf d w - p) / t_pdf d w)) by (un_cls; er_arith; reflexivity).
  rewrite IH. do 2 f_equal. unfold taylor_step. replace (1 - p - t_cdf d w) with (1 - t_cdf d w - p) by ring.
  field. cbn [pow] in *. split; nra.
Qed.

(** ** the starting value *)
Lemma hill_a_pos d : 1 / 2 < d -> 0 < hill_a d.
Proof. intros. unfold hill_a. apply Rinv_0_lt_compat. lra. Qed.
Lemma hill_b_pos d : 1 / 2 < d -> 0 < hill_b d.
Proof. intros H. pose proof (hill_a_pos d H). unfold hill_b. apply Rdiv_lt_0_compat; [lra|]. nra. Qed.
Lemma hill_bc_pos d : 1 / 2 < d -> 0 < hill_b d + hill_c d.
Proof.
  intros H. pose proof (hill_a_pos d H) as Ha. pose proof (hill_b_pos d H) as Hb. unfold hill_c.
  set (a := hill_a d) in *.
  replace (20700 * a / hill_b d) with (43125 / 100 * a ^ 3) by (unfold hill_b; fold a; field; lra).
  set (b := hill_b d) in *. assert (Eb : b * a ^ 2 = 48) by (unfold b, hill_b; fold a; field; lra).
  destruct (Rle_dec a 1) as [L|L].
  - assert (48 <= b). { assert (a ^ 2 <= 1) by nra. nra. }
    assert (0 < a ^ 5) by now apply pow_lt. assert (a ^ 2 <= 1) by nra.
    replace (((43125 / 100 * a ^ 3 - 98) * a - 16) * a + 9636 / 100) with (43125 / 100 * a ^ 5 - 98 * a ^ 2 - 16 * a + 9636 / 100) by ring. lra.
  - assert (1 <= a ^ 3) by (apply pow_R1_Rle; lra).
    assert (43125 / 100 * a ^ 3 - 98 >= 300) by lra.
    assert ((43125 / 100 * a ^ 3 - 98) * a - 16 >= 200) by nra.
    assert (((43125 / 100 * a ^ 3 - 98) * a - 16) * a >= 0) by nra. lra.
Qed.
Lemma coefs d : 1 / 2 < d ->
  qt_coef_a (N:=NS) (Fin d) = Fin (hill_a d) /\
  qt_coef_b (N:=NS) (Fin (hill_a d)) = Fin (hill_b d) /\
  qt_coef_c (N:=NS) (Fin (hill_a d)) (Fin (hill_b d)) = Fin (hill_c d) /\
  qt_coef_d (N:=NS) (Fin d) (Fin (hill_a d)) (Fin (hill_b d)) (Fin (hill_c d)) = Fin (hill_d d).
Proof.
  intros H. pose proof (hill_a_pos d H) as Ha. pose proof (hill_b_pos d H) as Hb. pose proof (hill_bc_pos d H) as Hc.
  repeat split.
  - unfold qt_coef_a. un_cls. er_arith. unfold hill_a. f_equal. field. lra.
  - unfold qt_coef_b. un_cls. rewrite emul_F, ediv_F by nra. unfold hill_b. f_equal. field. lra.
  - unfold qt_coef_c. un_cls. er_arith. unfold hill_c. f_equal. field. lra.
  - unfold qt_coef_d. un_cls. rewrite (esqrt_F (hill_a d)) by lra. er_arith. unfold hill_d. f_equal.
    replace (hill_a d * Rtrigo1.PI / 2) with (hill_a d * (Rtrigo1.PI / 2)) by field.
    pose proof PI_RGT_0. rewrite sqrt_mult by lra. field. lra.
Qed.
Lemma qt_tail_val p d : lgamma_spec S -> incbeta_spec S -> 0 < eps -> eps <= d -> 1 / 2 < d -> d <> 1 -> d <> 2 ->
  0 < p < 1 / 2 -> 0 < hill_d d -> hill_y d (2 * p) <= 5 / 100 + hill_a d -> hill_den d (2 * p) <> 0 ->
  0 <= hill_start d (2 * p) ->
  qt (N:=NS) (Fin p) (Fin d) = Fin (- taylor_iter 6 d (1 - p) (R_sqrt.sqrt (d * hill_start d (2 * p)))).
Proof.
  intros HL HI He Hd Hd2 H1 H2 Hp HD HY HN HS.
  destruct (coefs d Hd2) as (EA & EB & EC & ED).
  assert (EY : qt_y_init (N:=NS) (Fin (2 * p)) (Fin d) (Fin (hill_d d)) = Fin (hill_y d (2 * p))).
  { unfold qt_y_init, hill_y. assert (0 < hill_d d * (2 * p)) by nra. un_cls. er_arith. reflexivity. }
  assert (Y : 0 < hill_y d (2 * p)) by apply exp_pos.
  assert (EM : qt_main_iter (N:=NS) (Fin (2 * p)) (Fin d) = Fin (taylor_iter 6 d (1 - p) (R_sqrt.sqrt (d * hill_start d (2 * p))))).
  { unfold qt_main_iter. rewrite EA, EB, EC, ED. unfold qt_finish. rewrite EY. unfold qt_choose.
    set (y := hill_y d (2 * p)) in *.
    replace (ltb (Num:=NS) _ (Fin y)) with false.
    2:{ un_cls. er_arith. rdecide. reflexivity. }
    unfold qt_y_2, qt_y_2_begin.
    assert (ES : add (Num:=NS) (div (Num:=NS) (ofZ (Num:=NS) 1) (Fin y))
       (div (Num:=NS) (mul (Num:=NS) (add (Num:=NS) (Fin d) (ofZ (Num:=NS) 1)) (sub (Num:=NS) (mul (Num:=NS) (qt_y_2_mterm (N:=NS) (Fin y) (Fin d) (Fin (hill_d d))) (Fin y)) (ofZ (Num:=NS) 1))) (add (Num:=NS) (Fin d) (ofZ (Num:=NS) 2)))
       = Fin (hill_start d (2 * p))).
    { unfold qt_y_2_mterm. unfold hill_den in HN. fold y in HN. unfold hill_start, hill_den. fold y.
      assert (0 < d * y) by nra.
      set (D := hill_d d) in *. un_cls. er_arith.
      f_equal.
      replace ((d + 6) / (d * y) - 89 / 1000 * D - 822 / 1000) with ((d + 6) / (d * y) - 89 / 1000 * D - 822 / 1000) by ring.
      set (W := (d + 6) / (d * y) - _ - _) in *. field. repeat split; lra. }
    refold S. rewrite ES.
    replace (div (Num:=NS) (Fin (2 * p)) (ofZ (Num:=NS) 2)) with (Fin p) by (un_cls; er_arith; f_equal; field).
    replace (sqrt (Num:=NS) _) with (Fin (R_sqrt.sqrt (d * hill_start d (2 * p)))).
    2:{ assert (0 <= d * hill_start d (2 * p)) by nra. un_cls. er_arith. reflexivity. }
    change (ofZ (Num:=NS) 0) with (Fin 0). rewrite loop_val by auto. do 2 f_equal. ring. }
  unfold qt, qt_main. replace (mul (Num:=NS) (ofZ (Num:=NS) 2) (Fin p)) with (Fin (2 * p)) by (un_cls; er_arith; reflexivity).
  rewrite EM. un_cls. er_arith. rdecide. cbn [eeqb]. rdecide. reflexivity.
Qed.
End S.
