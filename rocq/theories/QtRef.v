(** quant/qt.ipp: the Taylor refinement of extreme Student quantiles. *)
From Coq Require Import Reals ZArith QArith Bool Lra Lia Psatz.
From Coquelicot Require Import Coquelicot.
From Verif Require Import Num Sanity ER ERTac Prob Dens Quant Spec SpecER ClosedElem RealElem
  LogForm Support Elem Norm NormR SpecSF BetaFn GammaFn QtR FamR FamG FamB Witness WitnessSF SpecQt QtRefR QtRefE QtRef4.
Local Open Scope R_scope.

Section S.
Variable S : SF.
Notation NS := (ER_Num S).
Notation eps := (sf_eps S).
Hypothesis HL : lgamma_spec S.
Hypothesis HI : incbeta_spec S.
Hypothesis He : 0 < eps.
Notation loop n p d v := (qt_y_2_loop (N:=NS) n (Fin p) (Fin d) (Fin v) (Fin 0)).

Lemma loop0 n p d v : eps <= d -> loop n p d v = Fin (taylor_iter n d (1 - p) v).
Proof. intros. rewrite loop_val by auto. do 2 f_equal. ring. Qed.
Lemma loop_fixed n p d vs : eps <= d -> t_cdf d vs = 1 - p -> loop n p d vs = Fin vs.
Proof. intros. rewrite loop0 by auto. f_equal. apply iter_root; auto. Qed.
Lemma loop_side n p d v vs : eps <= d -> t_cdf d vs = 1 - p ->
  exists w, loop n p d v = Fin w /\ (v <= vs -> w <= vs) /\ (vs <= v -> vs <= w).
Proof.
  intros Hd Hq. eexists. split; [now apply loop0|]. split; intros H.
  - rewrite <- (iter_root d (1 - p) vs Hq n). apply iter_mono; auto. lra.
  - apply iter_above; auto. lra.
Qed.
Lemma loop_below n p d v vs : eps <= d -> t_cdf d vs = 1 - p -> 0 <= v <= vs ->
  exists w, loop n p d v = Fin w /\ v <= w <= vs /\
    vs - w <= (vs - v) * (cub_const d v * (vs - v) ^ 2) ^ cubexp n /\
    vs - w <= (vs - v) * (1 - t_pdf d vs / t_pdf d v) ^ n.
Proof.
  intros Hd Hq Hv. eexists. split; [now apply loop0|]. repeat split.
  - apply (iter_below d (1 - p) ltac:(lra) vs); auto.
  - apply (iter_below d (1 - p) ltac:(lra) vs); auto.
  - apply iter_below_cub; auto. lra.
  - apply iter_below_lin; auto. lra.
Qed.
Lemma loop_below_lim p d v vs : eps <= d -> t_cdf d vs = 1 - p -> 0 <= v <= vs ->
  forall e, 0 < e -> exists N, forall n, (N <= n)%nat -> exists w, loop n p d v = Fin w /\ Rabs (w - vs) < e.
Proof.
  intros Hd Hq Hv e Hepos. set (r := 1 - t_pdf d vs / t_pdf d v).
  assert (Pv : 0 < t_pdf d v) by (apply t_pdf_pos; lra). assert (Ps : 0 < t_pdf d vs) by (apply t_pdf_pos; lra).
  assert (Hr : 0 <= r < 1).
  { pose proof (t_pdf_decr d ltac:(lra) v vs Hv).
    assert (t_pdf d vs / t_pdf d v <= 1) by (apply Rmult_le_reg_r with (t_pdf d v); auto; unfold Rdiv; rewrite Rmult_assoc, Rinv_l; lra).
    assert (0 < t_pdf d vs / t_pdf d v) by now apply Rdiv_lt_0_compat. unfold r. lra. }
  destruct (pow_lt_1_zero r ltac:(rewrite Rabs_pos_eq; lra) (e / (vs - v + 1)) ltac:(apply Rdiv_lt_0_compat; lra)) as (N & HN).
  exists N. intros n Hn. destruct (loop_below n p d v vs Hd Hq Hv) as (w & E & B & _ & L). exists w. split; auto.
  specialize (HN n Hn). rewrite Rabs_pos_eq in HN by (apply pow_le; lra). fold r in L.
  rewrite Rabs_minus_sym, Rabs_pos_eq by lra. apply Rle_lt_trans with (1 := L).
  apply Rle_lt_trans with ((vs - v) * (e / (vs - v + 1))); [apply Rmult_le_compat_l; lra|].
  apply Rmult_lt_reg_r with (vs - v + 1); [lra|]. replace ((vs - v) * (e / (vs - v + 1)) * (vs - v + 1)) with ((vs - v) * e) by (field; lra). nra.
Qed.
Lemma loop_above n p d v vs : eps <= d -> t_cdf d vs = 1 - p -> 0 <= vs <= v ->
  cub_const d vs * (t_pdf d vs / t_pdf d v) ^ 2 * (v - vs) ^ 2 <= 1 ->
  exists w, loop n p d v = Fin w /\ vs <= w <= v /\
    w - vs <= (v - vs) * (cub_const d vs * (t_pdf d vs / t_pdf d v) ^ 2 * (v - vs) ^ 2) ^ cubexp n.
Proof.
  intros Hd Hq Hv Hk. eexists. split; [now apply loop0|].
  pose proof (iter_above_range d (1 - p) ltac:(lra) vs Hq v Hv Hk n). repeat split; try lra.
  apply iter_above_cub; auto. lra.
Qed.

(** the quantile function itself, lower tail *)
Lemma qt_tail_side p d vs : hill_tail eps d p -> t_cdf d (- vs) = p ->
  exists q, qt (N:=NS) (Fin p) (Fin d) = Fin q /\
    (R_sqrt.sqrt (d * hill_start d (2 * p)) <= vs -> - vs <= q) /\
    (vs <= R_sqrt.sqrt (d * hill_start d (2 * p)) -> q <= - vs).
Proof.
  intros (H1 & H2 & H3 & H4 & H5 & H6 & H7 & H8 & H9) Hq. eexists.
  split; [now apply qt_tail_val|]. rewrite t_cdf_sym in Hq by lra.
  set (v := R_sqrt.sqrt _). split; intros H; apply Ropp_le_contravar.
  - rewrite <- (iter_root d (1 - p) vs ltac:(lra) 6). apply iter_mono; auto. lra.
  - apply iter_above; auto; lra.
Qed.
Lemma qt_tail_accuracy p d vs : hill_tail eps d p -> 0 <= vs -> t_cdf d (- vs) = p ->
  let v := R_sqrt.sqrt (d * hill_start d (2 * p)) in
  let k := cub_const d (Rmin v vs) * Rmax 1 (t_pdf d vs / t_pdf d v) ^ 2 * (v - vs) ^ 2 in
  k <= 1 ->
  exists q, qt (N:=NS) (Fin p) (Fin d) = Fin q /\ Rabs (q - - vs) <= Rabs (v - vs) * k ^ 364 /\
    Rabs (t_cdf d q - p) <= t_pdf d 0 * (Rabs (v - vs) * k ^ 364).
Proof.
  intros HT Hvs Hq v k Hk. pose proof HT as (H1 & H2 & H3 & H4 & H5 & H6 & H7 & H8 & H9).
  assert (Hq' : t_cdf d vs = 1 - p) by (rewrite t_cdf_sym in Hq by lra; lra).
  assert (Hv : 0 <= v) by apply sqrt_pos. assert (Hd : 0 < d) by lra.
  assert (B : Rabs (taylor_iter 6 d (1 - p) v - vs) <= Rabs (v - vs) * k ^ 364 /\ 0 <= taylor_iter 6 d (1 - p) v).
  { change 364%nat with (cubexp 6). destruct (Rle_lt_dec v vs) as [L|L].
    - pose proof (iter_below d (1 - p) Hd vs Hq' 6 v ltac:(lra)) as B. split; [|lra].
      rewrite Rabs_minus_sym, (Rabs_minus_sym v), !Rabs_pos_eq by lra.
      apply Rle_trans with (1 := iter_below_cub d (1 - p) Hd vs Hq' 6 v ltac:(lra)).
      apply Rmult_le_compat_l; [lra|]. apply pow_incr. pose proof (cub_const_nonneg d Hd v) as C. split.
      + apply Rmult_le_pos; auto. apply pow2_ge_0.
      + unfold k. rewrite Rmin_left by lra. replace ((v - vs) ^ 2) with ((vs - v) ^ 2) by ring.
        apply Rmult_le_compat_r; [apply pow2_ge_0|].
        assert (1 <= Rmax 1 (t_pdf d vs / t_pdf d v)) by apply Rmax_l.
        assert (1 <= Rmax 1 (t_pdf d vs / t_pdf d v) ^ 2) by (cbn [pow]; nra). nra.
    - assert (R1 : 1 <= t_pdf d vs / t_pdf d v).
      { pose proof (t_pdf_decr d Hd vs v ltac:(lra)). pose proof (t_pdf_pos d Hd v).
        apply Rmult_le_reg_r with (t_pdf d v); auto. unfold Rdiv. rewrite Rmult_assoc, Rinv_l; lra. }
      unfold k in *. rewrite Rmin_right in * by lra. rewrite Rmax_right in * by lra.
      pose proof (iter_above_range d (1 - p) Hd vs Hq' v ltac:(lra) Hk 6) as B. split; [|lra].
      rewrite !Rabs_pos_eq by lra. apply iter_above_cub; auto; lra. }
  set (w := taylor_iter 6 d (1 - p) v) in *. exists (- w). split; [now apply qt_tail_val|].
  destruct B as (B & B0). split.
  - replace (- w - - vs) with (- (w - vs)) by ring. now rewrite Rabs_Ropp.
  - rewrite t_cdf_sym by auto. replace (1 - t_cdf d w - p) with (t_cdf d vs - t_cdf d w) by lra.
    apply Rle_trans with (t_pdf d 0 * Rabs (w - vs)); [|apply Rmult_le_compat_l; auto; left; now apply t_pdf_pos].
    destruct (Rle_lt_dec w vs) as [L|L].
    + pose proof (F_between d Hd w vs ltac:(lra)). pose proof (t_cdf_le d Hd w vs L). pose proof (t_pdf_decr d Hd 0 w ltac:(lra)).
      rewrite Rabs_pos_eq, Rabs_minus_sym, Rabs_pos_eq by lra. nra.
    + pose proof (F_between d Hd vs w ltac:(lra)). pose proof (t_cdf_le d Hd vs w ltac:(lra)). pose proof (t_pdf_decr d Hd 0 vs ltac:(lra)).
      rewrite Rabs_minus_sym, !Rabs_pos_eq by lra. nra.
Qed.
End S.


(** a start far above the root is made worse *)
Lemma loop_above_bad (S : SF) : lgamma_spec S -> incbeta_spec S -> 0 < sf_eps S <= 1 ->
  exists w, qt_y_2_loop (N:=ER_Num S) 1 (Fin (1 / 4)) (Fin 1) (Fin 10) (Fin 0) = Fin w /\ t_cdf 1 1 = 1 - 1 / 4 /\ 11 < w.
Proof.
  intros HL HI He. destruct above_bad as (w & E & F1 & L). exists w. rewrite loop0 by (auto; lra).
  repeat split; auto; [|lra]. f_equal. rewrite <- E. f_equal. lra.
Qed.
(** the hypotheses of the accuracy lemma hold at four degrees of freedom *)
Lemma tail_4 e : 0 < e <= 1 -> hill_tail e 4 p4.
Proof.
  intros He. pose proof p4_range. pose proof hill_d_4. pose proof hill_den_4. pose proof hill_start_4.
  unfold hill_tail. rewrite hill_y_4, hill_a_4. repeat split; lra.
Qed.
Lemma kappa_4 vs : 34 / 10 <= vs <= 38 / 10 ->
  cub_const 4 (Rmin v4 vs) * Rmax 1 (t_pdf 4 vs / t_pdf 4 v4) ^ 2 * (v4 - vs) ^ 2 <= 1 / 8.
Proof.
  intros Hv. pose proof v4_range. pose proof (pdf_ratio_4 vs v4 ltac:(lra) ltac:(lra)) as Hr.
  pose proof (cub_const_4 (Rmin v4 vs) ltac:(unfold Rmin; destruct Rle_dec; lra)) as Hc.
  assert (M : 1 <= Rmax 1 (t_pdf 4 vs / t_pdf 4 v4) <= 2).
  { split; [apply Rmax_l|]. apply Rmax_lub; lra. }
  set (m := Rmax _ _) in *. set (c := cub_const _ _) in *.
  assert ((v4 - vs) ^ 2 <= 625 / 10000) by (cbn [pow]; nra). pose proof (pow2_ge_0 (v4 - vs)).
  assert (m ^ 2 <= 4) by (cbn [pow]; nra). pose proof (pow2_ge_0 m).
  assert (c * m ^ 2 <= 2) by nra. assert (0 <= c * m ^ 2) by nra. nra.
Qed.
Lemma one_root : t_cdf 1 1 = 1 - 1 / 4.
Proof. destruct above_bad as (w & _ & E & _). lra. Qed.
