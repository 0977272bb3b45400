(** Real-number analysis of the Taylor refinement of Student quantiles: the step is
    non-decreasing, never crosses the root, and converges with order three. *)
From Coq Require Import Reals Lra Lia Psatz.
From Coquelicot Require Import Coquelicot.
From Verif Require Import Spec RealElem Analysis GammaFn SpecSF FamR SpecQt.
Local Open Scope R_scope.

Section Q.
Variables d q : R.
Hypothesis Hd : 0 < d.
Notation F := (t_cdf d).
Notation f := (t_pdf d).
Definition tg (v : R) : R := (d + 1) * v / (2 * (d + v ^ 2)).
Definition tx (v : R) : R := (q - F v) / f v.
Definition tK (v : R) : R := (d + 1) * (d + (2 * d + 1) * v ^ 2) / (2 * (d + v ^ 2) ^ 2).
Notation T := (taylor_step d q).

Lemma t_den v : 0 < d + v ^ 2.
Proof. pose proof (pow2_ge_0 v). lra. Qed.
Lemma t_pdf_derive v : is_derive f v (- (2 * tg v) * f v).
Proof.
  pose proof (t_base d Hd v) as Hb. pose proof (t_den v) as Hv. unfold t_pdf.
  set (c := Gam _ / _). set (a := - ((d + 1) / 2)).
  eapply d_eq.
  - apply (d_scal (fun x => Rpower (1 + x ^ 2 / d) a)).
    apply (d_comp (fun u => Rpower u a) (fun x => 1 + x ^ 2 / d)).
    + now apply is_derive_Rpower.
    + auto_derive; [lra|]. reflexivity.
  - cbn [pow]. rewrite !Rmult_1_r. rewrite Rpower_m1 by (cbn [pow] in Hb; lra).
    unfold a, tg. cbn [pow] in *. rewrite Rmult_1_r in *. field. split; [|lra]. nra.
Qed.
Lemma tg_derive v : is_derive tg v ((d + 1) * (d - v ^ 2) / (2 * (d + v ^ 2) ^ 2)).
Proof. pose proof (t_den v). unfold tg. auto_derive; [cbn [pow] in *; lra|]. field. cbn [pow] in *. nra. Qed.
Lemma tx_derive v : is_derive tx v (-1 + 2 * tg v * tx v).
Proof.
  pose proof (t_pdf_pos d Hd v) as Hp. unfold tx. eapply d_eq.
  - apply (is_derive_div (fun w => q - F w) f); [|apply t_pdf_derive|lra].
    apply d_minus; [apply d_const|apply t_cdf_derive; auto].
  - field. lra.
Qed.
Lemma T_tx v : T v = v + tx v + tx v ^ 2 * tg v.
Proof. reflexivity. Qed.
Lemma T_derive v : is_derive T v (tx v ^ 2 * tK v).
Proof.
  pose proof (t_den v) as Hv.
  apply (is_derive_ext (fun v => v + tx v + tx v ^ 2 * tg v)); [reflexivity|].
  eapply d_eq.
  - apply d_plus; [apply d_plus; [apply (is_derive_id v)|apply tx_derive]|].
    apply d_mult; [|apply tg_derive]. apply (is_derive_pow tx 2). apply tx_derive.
  - change (@one _ : R) with 1. unfold tK. set (x := tx v). unfold tg.
    cbn [INR pow pred]. cbn [pow] in Hv. field. nra.
Qed.
Lemma T_cont v : continuity_pt T v.
Proof. apply (derive_cont_pt _ _ _ (T_derive v)). Qed.
Lemma tK_nonneg v : 0 <= tK v.
Proof.
  pose proof (t_den v). pose proof (pow2_ge_0 v). unfold tK. apply Rmult_le_pos; [|left; apply Rinv_0_lt_compat; nra].
  apply Rmult_le_pos; nra.
Qed.
Lemma tK_le v m : 0 <= m <= v -> tK v <= (d + 1) * (2 * d + 1) / (2 * (d + m ^ 2)).
Proof.
  intros H. pose proof (t_den v). pose proof (t_den m).
  assert (m ^ 2 <= v ^ 2) by nra. set (u := v ^ 2) in *. set (w := m ^ 2) in *.
  assert (0 <= w) by (unfold w; nra).
  apply Rle_trans with ((d + 1) * (2 * d + 1) / (2 * (d + u))).
  - unfold tK. fold u. apply Rmult_le_reg_r with (2 * (d + u) ^ 2); [nra|].
    replace ((d + 1) * (d + (2 * d + 1) * u) / (2 * (d + u) ^ 2) * (2 * (d + u) ^ 2)) with ((d + 1) * (d + (2 * d + 1) * u)) by (field; lra).
    replace ((d + 1) * (2 * d + 1) / (2 * (d + u)) * (2 * (d + u) ^ 2)) with ((d + 1) * ((2 * d + 1) * (d + u))) by (field; lra).
    apply Rmult_le_compat_l; nra.
  - apply Rmult_le_compat_l; [nra|]. apply Rinv_le_contravar; lra.
Qed.
Lemma T_mono v w : v <= w -> T v <= T w.
Proof.
  intros H. apply (mono_of_derive T (fun v => tx v ^ 2 * tK v)); auto.
  - intros. apply T_derive.
  - intros. apply Rmult_le_pos; [apply pow2_ge_0|apply tK_nonneg].
  - intros. apply T_cont.
Qed.
Lemma t_pdf_decr v w : 0 <= v <= w -> f w <= f v.
Proof.
  intros [H0 H]. apply Ropp_le_cancel.
  apply (mono_of_derive (fun x => - f x) (fun v => - (- (2 * tg v) * f v))); auto.
  - intros. apply d_opp, t_pdf_derive.
  - intros x Hx. pose proof (t_pdf_pos d Hd x). assert (0 <= tg x); [|nra].
    pose proof (t_den x). unfold tg. apply Rmult_le_pos; [nra|left; apply Rinv_0_lt_compat; lra].
  - intros. apply continuity_pt_opp. apply (derive_cont_pt _ _ _ (t_pdf_derive x)).
Qed.
Lemma F_between v w : 0 <= v <= w -> f w * (w - v) <= F w - F v <= f v * (w - v).
Proof.
  intros [H0 [H| ->]]; [|lra].
  destruct (mvt F f v w) as (c & Hc & E); auto.
  - intros. now apply t_cdf_derive.
  - intros. apply (derive_cont_pt _ _ (f x)). now apply t_cdf_derive.
  - rewrite E. pose proof (t_pdf_decr v c ltac:(lra)). pose proof (t_pdf_decr c w ltac:(lra)). nra.
Qed.

Variable vs : R.
Hypothesis Hq : F vs = q.
Lemma tx_root : tx vs = 0.
Proof. unfold tx. rewrite Hq. unfold Rdiv. ring. Qed.
Lemma T_root : T vs = vs.
Proof. rewrite T_tx, tx_root. ring. Qed.

(** ** from below *)
Lemma tx_below v : 0 <= v <= vs -> (vs - v) * (f vs / f v) <= tx v <= vs - v.
Proof.
  intros H. pose proof (F_between v vs H) as B. pose proof (t_pdf_pos d Hd v) as P. rewrite Hq in B. unfold tx. split.
  - unfold Rdiv. rewrite <- Rmult_assoc. apply Rmult_le_compat_r; [left; now apply Rinv_0_lt_compat|]. lra.
  - apply Rmult_le_reg_r with (f v); auto. unfold Rdiv. rewrite Rmult_assoc, Rinv_l by lra. lra.
Qed.
Lemma T_below v : 0 <= v <= vs -> v <= T v <= vs.
Proof.
  intros H. split.
  - rewrite T_tx. pose proof (tx_below v H). pose proof (t_den v).
    assert (0 <= f vs / f v) by (left; apply Rdiv_lt_0_compat; now apply t_pdf_pos).
    assert (0 <= tg v) by (unfold tg; apply Rmult_le_pos; [nra|left; apply Rinv_0_lt_compat; lra]).
    pose proof (pow2_ge_0 (tx v)). assert (0 <= tx v) by nra. nra.
  - apply Rle_trans with (T vs); [now apply T_mono|rewrite T_root; lra].
Qed.
Lemma T_below_lin v v0 : 0 <= v0 <= v -> v <= vs -> vs - T v <= (vs - v) * (1 - f vs / f v0).
Proof.
  intros H0 H. rewrite T_tx. pose proof (tx_below v ltac:(lra)) as (B & _). pose proof (t_den v).
  assert (P : 0 < f v) by now apply t_pdf_pos. assert (P0 : 0 < f v0) by now apply t_pdf_pos.
  assert (Ps : 0 < f vs) by now apply t_pdf_pos.
  assert (0 <= tg v) by (unfold tg; apply Rmult_le_pos; [nra|left; apply Rinv_0_lt_compat; lra]).
  pose proof (pow2_ge_0 (tx v)).
  assert (f vs / f v0 <= f vs / f v).
  { apply Rmult_le_compat_l; [lra|]. apply Rinv_le_contravar; auto. now apply t_pdf_decr. }
  assert ((vs - v) * (f vs / f v0) <= (vs - v) * (f vs / f v)) by (apply Rmult_le_compat_l; lra). nra.
Qed.
Lemma T_below_cub v : 0 <= v <= vs -> vs - T v <= cub_const d v * (vs - v) ^ 3.
Proof.
  intros H. set (k := (d + 1) * (2 * d + 1) / (2 * (d + v ^ 2))).
  assert (E : cub_const d v = k / 3) by (unfold cub_const, k; field; pose proof (t_den v); lra).
  assert (M : - (k / 3 * (vs - v) ^ 3) - T v <= - (k / 3 * (vs - vs) ^ 3) - T vs).
  { apply (mono_of_derive (fun w => - (k / 3 * (vs - w) ^ 3) - T w) (fun w => k * (vs - w) ^ 2 - tx w ^ 2 * tK w)); [lra| | |].
    - intros w Hw. apply d_minus; [|apply T_derive]. auto_derive; auto. cbn [pow]. field.
    - intros w Hw. pose proof (tx_below w ltac:(lra)) as B. pose proof (tK_le w v ltac:(lra)) as K. fold k in K.
      pose proof (tK_nonneg w).
      assert (0 <= f vs / f w) by (left; apply Rdiv_lt_0_compat; now apply t_pdf_pos).
      assert (0 <= tx w) by nra. assert (tx w ^ 2 <= (vs - w) ^ 2) by nra.
      assert (tx w ^ 2 * tK w <= (vs - w) ^ 2 * k) by (apply Rmult_le_compat; auto; apply pow2_ge_0). lra.
    - intros w Hw. apply continuity_pt_minus; [|apply T_cont].
      apply (derive_cont_pt _ _ (k * (vs - w) ^ 2)). auto_derive; auto. cbn [pow]. field. }
  rewrite T_root in M. rewrite E. replace (vs - vs) with 0 in M by ring. cbn [pow] in *. lra.
Qed.
(** ** from above *)
Lemma tx_above v : 0 <= vs <= v -> - ((v - vs) * (f vs / f v)) <= tx v <= 0.
Proof.
  intros H. pose proof (F_between vs v H) as B. pose proof (t_pdf_pos d Hd v) as P. rewrite Hq in B. unfold tx. split.
  - unfold Rdiv. rewrite <- Rmult_assoc, <- Ropp_mult_distr_l_reverse. apply Rmult_le_compat_r; [left; now apply Rinv_0_lt_compat|]. lra.
  - apply Rmult_le_reg_r with (f v); auto. unfold Rdiv. rewrite Rmult_assoc, Rinv_l by lra. nra.
Qed.
Lemma T_above v : vs <= v -> vs <= T v.
Proof. intros H. rewrite <- T_root at 1. now apply T_mono. Qed.
Lemma T_above_cub v : 0 <= vs <= v -> T v - vs <= cub_const d vs * (f vs / f v) ^ 2 * (v - vs) ^ 3.
Proof.
  intros H. set (k := (d + 1) * (2 * d + 1) / (2 * (d + vs ^ 2))). set (r := f vs / f v).
  assert (E : cub_const d vs = k / 3) by (unfold cub_const, k; field; pose proof (t_den vs); lra).
  assert (M : k / 3 * r ^ 2 * (vs - vs) ^ 3 - T vs <= k / 3 * r ^ 2 * (v - vs) ^ 3 - T v).
  { apply (mono_of_derive (fun w => k / 3 * r ^ 2 * (w - vs) ^ 3 - T w) (fun w => k * r ^ 2 * (w - vs) ^ 2 - tx w ^ 2 * tK w)); [lra| | |].
    - intros w Hw. apply d_minus; [|apply T_derive]. auto_derive; auto. cbn [pow]. field.
    - intros w Hw. pose proof (tx_above w ltac:(lra)) as B. pose proof (tK_le w vs ltac:(lra)) as K. fold k in K.
      pose proof (tK_nonneg w). assert (Pw : 0 < f w) by now apply t_pdf_pos.
      assert (P0 : 0 < f v) by now apply t_pdf_pos. assert (Ps : 0 < f vs) by now apply t_pdf_pos.
      assert (f vs / f w <= r).
      { apply Rmult_le_compat_l; [lra|]. apply Rinv_le_contravar; auto. apply t_pdf_decr. lra. }
      assert ((w - vs) * (f vs / f w) <= (w - vs) * r) by (apply Rmult_le_compat_l; lra).
      assert (tx w ^ 2 <= ((w - vs) * r) ^ 2) by nra.
      assert (tx w ^ 2 * tK w <= ((w - vs) * r) ^ 2 * k) by (apply Rmult_le_compat; auto; apply pow2_ge_0).
      replace (((w - vs) * r) ^ 2 * k) with (k * r ^ 2 * (w - vs) ^ 2) in * by ring. lra.
    - intros w Hw. apply continuity_pt_minus; [|apply T_cont].
      apply (derive_cont_pt _ _ (k * r ^ 2 * (w - vs) ^ 2)). auto_derive; auto. cbn [pow]. field. }
  rewrite T_root in M. rewrite E. replace (vs - vs) with 0 in M by ring. cbn [pow] in *. lra.
Qed.

(** ** iteration *)
Notation I n := (taylor_iter n d q).
Lemma iter_root n : I n vs = vs.
Proof. induction n; cbn [taylor_iter]; auto. now rewrite T_root. Qed.
Lemma iter_mono n v w : v <= w -> I n v <= I n w.
Proof. revert v w. induction n; intros v w H; cbn [taylor_iter]; auto. apply IHn. now apply T_mono. Qed.
Lemma iter_below n v : 0 <= v <= vs -> v <= I n v <= vs.
Proof.
  revert v. induction n; intros v H; cbn [taylor_iter]; [lra|].
  pose proof (T_below v H). specialize (IHn (T v) ltac:(lra)). lra.
Qed.
Lemma iter_above n v : vs <= v -> vs <= I n v.
Proof. intros. rewrite <- (iter_root n) at 1. now apply iter_mono. Qed.
Lemma iter_last n v : I (S n) v = T (I n v).
Proof. revert v. induction n; intros v; cbn [taylor_iter] in *; auto. Qed.
Lemma iter_below_lin n v : 0 <= v <= vs -> vs - I n v <= (vs - v) * (1 - f vs / f v) ^ n.
Proof.
  intros H. induction n; [cbn; lra|]. rewrite iter_last.
  pose proof (iter_below n v H) as B. pose proof (T_below_lin (I n v) v ltac:(lra) ltac:(lra)) as L.
  assert (0 <= 1 - f vs / f v).
  { pose proof (t_pdf_pos d Hd v). pose proof (t_pdf_decr v vs H).
    assert (f vs / f v <= 1); [|lra]. apply Rmult_le_reg_r with (f v); auto. unfold Rdiv. rewrite Rmult_assoc, Rinv_l; lra. }
  apply Rle_trans with (1 := L). cbn [pow].
  replace ((vs - v) * ((1 - f vs / f v) * (1 - f vs / f v) ^ n)) with ((vs - v) * (1 - f vs / f v) ^ n * (1 - f vs / f v)) by ring.
  now apply Rmult_le_compat_r.
Qed.
Lemma cub_iter (e : nat -> R) c : 0 <= c -> (forall n, 0 <= e n) -> (forall n, e (S n) <= c * e n ^ 3) ->
  forall n, e n <= e 0%nat * (c * e 0%nat ^ 2) ^ cubexp n.
Proof.
  intros Hc H0 H n. induction n; [cbn; lra|].
  apply Rle_trans with (1 := H n). apply Rle_trans with (c * (e 0%nat * (c * e 0%nat ^ 2) ^ cubexp n) ^ 3).
  - apply Rmult_le_compat_l; auto. apply pow_incr. split; auto.
  - right. cbn [cubexp]. rewrite pow_add, (Nat.mul_comm 3), pow_mult. rewrite Rpow_mult_distr. set (z := (_ ^ cubexp n) ^ 3). ring.
Qed.
Lemma cub_const_nonneg m : 0 <= cub_const d m.
Proof. pose proof (t_den m). unfold cub_const. apply Rmult_le_pos; [nra|left; apply Rinv_0_lt_compat; lra]. Qed.
Lemma iter_below_cub n v : 0 <= v <= vs ->
  vs - I n v <= (vs - v) * (cub_const d v * (vs - v) ^ 2) ^ cubexp n.
Proof.
  intros H. apply (cub_iter (fun n => vs - I n v) (cub_const d v)); [apply cub_const_nonneg| |].
  - intros k. pose proof (iter_below k v H). lra.
  - intros k. rewrite iter_last. pose proof (iter_below k v H) as B.
    apply Rle_trans with (1 := T_below_cub (I k v) ltac:(lra)).
    apply Rmult_le_compat_r; [apply pow_le; lra|]. pose proof (t_den v). pose proof (t_den (I k v)).
    unfold cub_const. apply Rmult_le_compat_l; [nra|]. apply Rinv_le_contravar; [lra|]. assert (v ^ 2 <= I k v ^ 2) by nra. lra.
Qed.
Section Above.
Variable v0 : R.
Hypothesis H0 : 0 <= vs <= v0.
Notation c := (cub_const d vs * (f vs / f v0) ^ 2).
Hypothesis Hk : c * (v0 - vs) ^ 2 <= 1.
Lemma c_nonneg : 0 <= c.
Proof. apply Rmult_le_pos; [apply cub_const_nonneg|apply pow2_ge_0]. Qed.
Lemma step_above v : vs <= v <= v0 -> T v - vs <= c * (v - vs) ^ 3 /\ vs <= T v <= v.
Proof.
  intros H. assert (A : T v - vs <= c * (v - vs) ^ 3).
  { apply Rle_trans with (1 := T_above_cub v ltac:(lra)). apply Rmult_le_compat_r; [apply pow_le; lra|].
    apply Rmult_le_compat_l; [apply cub_const_nonneg|].
    assert (Pv : 0 < f v) by now apply t_pdf_pos. assert (P0 : 0 < f v0) by now apply t_pdf_pos.
    assert (Ps : 0 < f vs) by now apply t_pdf_pos.
    apply pow_incr. split; [left; now apply Rdiv_lt_0_compat|].
    apply Rmult_le_compat_l; [lra|]. apply Rinv_le_contravar; auto. apply t_pdf_decr. lra. }
  split; [auto|]. split; [apply T_above; lra|].
  assert (c * (v - vs) ^ 2 <= 1).
  { apply Rle_trans with (2 := Hk). apply Rmult_le_compat_l; [apply c_nonneg|]. apply pow_incr. lra. }
  replace (c * (v - vs) ^ 3) with ((c * (v - vs) ^ 2) * (v - vs)) in A by ring. nra.
Qed.
Lemma iter_above_range n : vs <= I n v0 <= v0.
Proof.
  induction n; [cbn; lra|]. rewrite iter_last. pose proof (step_above (I n v0) IHn). lra.
Qed.
Lemma iter_above_cub n : I n v0 - vs <= (v0 - vs) * (c * (v0 - vs) ^ 2) ^ cubexp n.
Proof.
  apply (cub_iter (fun n => I n v0 - vs) c); [apply c_nonneg| |].
  - intros k. pose proof (iter_above_range k). lra.
  - intros k. rewrite iter_last. pose proof (iter_above_range k). now apply step_above.
Qed.
End Above.
End Q.
