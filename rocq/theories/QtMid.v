(** The branch of quant/qt.ipp outside the tails is Hill's expansion. *)
From Coq Require Import Reals ZArith QArith Bool Lra Lia Psatz.
From Verif Require Import Num Sanity ER ERTac Prob Dens Quant Spec SpecER ClosedElem RealElem
  LogForm Support Elem Norm NormR SpecSF BetaFn GammaFn QtR FamR FamG FamB Witness WitnessSF SpecQt QtRefR QtRefE QtPole.
Local Open Scope R_scope.

Section S.
Variable S : SF.
Notation NS := (ER_Num S).
Notation eps := (sf_eps S).
Local Notation "x [+] y" := (add (Num:=NS) x y) (at level 50, left associativity).
Local Notation "x [-] y" := (sub (Num:=NS) x y) (at level 50, left associativity).
Local Notation "x [*] y" := (mul (Num:=NS) x y) (at level 40, left associativity).
Local Notation "x [/] y" := (div (Num:=NS) x y) (at level 40, left associativity).
Local Notation "[~] x" := (neg (Num:=NS) x) (at level 35).
Local Notation "'K' n" := (ofZ (Num:=NS) n) (at level 5).

Lemma hill_expand_nonneg d x : 1 / 2 < d -> 0 <= hill_expand d x.
Proof.
  intros H. pose proof (hill_a_pos d H) as Ha. unfold hill_expand.
  assert (W : 0 <= hill_w d x) by (unfold hill_w; pose proof (pow2_ge_0 (hill_u d x)); nra).
  set (w := hill_w d x) in *. destruct Rlt_dec.
  - pose proof (exp_ineq1_le w). lra.
  - assert (0 <= w ^ 2) by apply pow2_ge_0. assert (0 <= (w + 4) * w + 12) by nra.
    assert (0 <= ((w + 4) * w + 12) * w ^ 2) by nra. lra.
Qed.
Lemma qt_y_1_val d x : 1 / 2 < d -> hill_cx d x <> 0 ->
  qt_y_1 (N:=NS) (Fin x) (Fin d) (Fin (hill_a d)) (Fin (hill_b d)) (Fin (hill_c d)) (Fin (hill_d d)) = Fin (hill_expand d x).
Proof.
  intros H HC. pose proof (hill_a_pos d H) as Ha. pose proof (hill_b_pos d H) as Hb.
  assert (E0 : qt_coef_c_update (N:=NS) (Fin x) (Fin d) (Fin (hill_c d)) = Fin (hill_c5 d x)).
  { unfold qt_coef_c_update, hill_c5. un_cls. er_arith. destruct (Rlt_dec d 5); rdecide; reflexivity. }
  unfold qt_y_1. rewrite E0.
  assert (EC : Fin (hill_b d) [+] Fin (hill_c5 d x) [+] Fin x [*] ([~] K 2 [+] Fin x [*] ([~] K 7 [+] Fin x [*] ([~] K 5 [+] lit (Num:=NS) (5#100) [*] Fin x [*] Fin (hill_d d)))) = Fin (hill_cx d x)).
  { un_cls. er_arith. f_equal. unfold hill_cx. lra. }
  rewrite EC.
  assert (EU : forall y1, y1 = Fin x [*] Fin x -> Fin x [*] (K 1 [+] ((y1 [*] (K 36 [+] y1 [*] (lit (Num:=NS) (63#10) [+] y1 [*] lit (Num:=NS) (4#10))) [+] lit (Num:=NS) (945#10)) [/] Fin (hill_cx d x) [-] y1 [-] K 3) [/] Fin (hill_b d)) = Fin (hill_u d x)).
  { intros y1 ->. un_cls. er_arith. f_equal. unfold hill_u. field. split; lra. }
  rewrite EU by reflexivity.
  assert (EW : mul (Num:=NS) (mul (Num:=NS) (Fin (hill_a d)) (Fin (hill_u d x))) (Fin (hill_u d x)) = Fin (hill_w d x)).
  { un_cls. er_arith. f_equal. unfold hill_w. ring. }
  rewrite EW. unfold hill_expand. set (w := hill_w d x).
  un_cls. er_arith. destruct (Rlt_dec (1 / 10) w); rdecide.
  - reflexivity.
  - f_equal. field.
Qed.
Lemma qt_mid_val p d x : erf_inv_spec S -> 0 < eps -> hill_middle eps d p x ->
  qt (N:=NS) (Fin p) (Fin d) =
  Fin ((if Rlt_dec p (1 / 2) then -1 else 1) * R_sqrt.sqrt (d * hill_expand d x)).
Proof.
  intros HI He (Hd & Hd2 & H1 & H2 & Hp & Hx & HD & HY & HC).
  destruct (coefs S d Hd2) as (EA & EB & EC & ED).
  assert (EY : qt_y_init (N:=NS) (Fin (2 * p)) (Fin d) (Fin (hill_d d)) = Fin (hill_y d (2 * p))).
  { unfold qt_y_init, hill_y. assert (0 < hill_d d * (2 * p)) by nra. un_cls. er_arith. reflexivity. }
  assert (EN : qnorm_std (N:=NS) (mul (Num:=NS) (lit (Num:=NS) (1#2)) (Fin (2 * p))) = Fin x).
  { replace (mul (Num:=NS) (lit (Num:=NS) (1#2)) (Fin (2 * p))) with (Fin p) by (un_cls; er_arith; f_equal; field).
    unfold qnorm_std. destruct (qnorm_val S p 0 1 HI ltac:(lra) Hp) as (q & E & Hq).
    assert (q = x) by (apply (norm_cdf_inj 0 1); lra). subst q. exact E. }
  assert (EM : qt_main_iter (N:=NS) (Fin (2 * p)) (Fin d) = Fin (R_sqrt.sqrt (d * hill_expand d x))).
  { unfold qt_main_iter. rewrite EA, EB, EC, ED. unfold qt_finish. rewrite EY. unfold qt_choose.
    set (y := hill_y d (2 * p)) in *.
    replace (ltb (Num:=NS) _ (Fin y)) with true.
    2:{ un_cls. er_arith. rdecide. reflexivity. }
    rewrite EN, qt_y_1_val by auto. pose proof (hill_expand_nonneg d x Hd2).
    assert (0 <= d * hill_expand d x) by nra. un_cls. er_arith. reflexivity. }
  unfold qt, qt_main. replace (mul (Num:=NS) (ofZ (Num:=NS) 2) (Fin p)) with (Fin (2 * p)) by (un_cls; er_arith; reflexivity).
  rewrite EM. un_cls. er_arith. rdecide. cbn [eeqb]. destruct (Rlt_dec p (1 / 2)); rdecide; cbn [eneg]; f_equal; ring.
Qed.
End S.

(** ten degrees of freedom: the median *)
Lemma mid_10 eps : eps <= 1 -> hill_middle eps 10 (1 / 2) 0.
Proof.
  intros He. assert (Ea : hill_a 10 = 2 / 19) by (unfold hill_a; field).
  assert (Eb : hill_b 10 = 4332) by (unfold hill_b; rewrite Ea; field).
  pose proof (hill_bc_pos 10 ltac:(lra)) as Hbc.
  assert (HD : 1 <= hill_d 10).
  { unfold hill_d. assert (0 < 945 / 10 / (hill_b 10 + hill_c 10)) by (apply Rdiv_lt_0_compat; lra).
    rewrite Ea, Eb in *. set (t := 945 / 10 / _) in *.
    assert (2 / 10 <= R_sqrt.sqrt (2 / 19 * Rtrigo1.PI / 2)).
    { rewrite <- (sqrt_pow2 (2 / 10)) by lra. apply sqrt_le_1_alt. pose proof PI2_3_2. lra. }
    set (q := R_sqrt.sqrt _) in *. assert (99 / 100 <= (t - 3) / 4332 + 1) by lra.
    set (r := (t - 3) / 4332 + 1) in *. nra. }
  repeat split; try lra.
  - exact norm_cdf_0.
  - unfold hill_y. rewrite Ea. apply Rlt_le_trans with 1; [lra|].
    replace (hill_d 10 * (2 * (1 / 2))) with (hill_d 10) by field.
    apply Rle_trans with (Rpower (hill_d 10) 0); [rewrite Rpower_O; lra | apply Rle_Rpower; lra].
  - unfold hill_cx, hill_c5. destruct Rlt_dec; [lra|]. lra.
Qed.
Lemma expand_0 d : hill_expand d 0 = 0.
Proof.
  assert (E : hill_w d 0 = 0) by (unfold hill_w, hill_u; rewrite Rmult_0_r; ring).
  unfold hill_expand. rewrite E. destruct Rlt_dec; [lra|]. field.
Qed.
