(** quant/qinvgauss.ipp: the reciprocal of the inverse-Gaussian density is convex, so the Newton
    residual grows with the probability, and the returned quantile is monotone in it. *)
From Coq Require Import Reals Lra.
From Coquelicot Require Import Coquelicot.
From Verif Require Import Spec RealElem Analysis Erf NormR SpecSF FamR InvGaussR.
Local Open Scope R_scope.

Section IG.
Variables mu l : R.
Hypothesis Hmu : 0 < mu.
Hypothesis Hl : 0 < l.
Notation F := (invgauss_cdf mu l).
Notation f := (invgauss_pdf mu l).
Notation h := (ig_h mu l).
Notation m := (ig_mode mu l).

(** minus the logarithmic derivative of the density *)
Definition ig_k x := (l * x ^ 2 + 3 * mu ^ 2 * x - l * mu ^ 2) / (2 * mu ^ 2 * x ^ 2).
Definition ig_c := sqrt (l / (2 * PI)).
Lemma ig_c_pos : 0 < ig_c.
Proof. pose proof PI_RGT_0. apply sqrt_lt_R0. apply Rdiv_lt_0_compat; lra. Qed.
Lemma ig_f x : 0 < x -> f x = ig_c * exp (h x).
Proof. intros. now apply ig_pdf_h. Qed.
Lemma ig_h_d x : 0 < x -> is_derive h x (- ig_k x).
Proof.
  intros. evar_last; [now apply ig_h_derive|]. unfold ig_k. field.
  lra.
Qed.
Lemma locally_pos x : 0 < x -> locally x (fun y => 0 < y).
Proof. intros H. exists (mkposreal x H). intros y B. apply Rabs_def2 in B. cbn in B. unfold minus, plus, opp in B. cbn in B. lra. Qed.
Lemma ig_f_derive x : 0 < x -> is_derive f x (- ig_k x * f x).
Proof.
  intros H. apply (is_derive_ext_loc (fun x => ig_c * exp (h x))).
  - generalize (locally_pos x H). apply filter_imp. intros y Hy. symmetry. now apply ig_f.
  - rewrite (ig_f x H). evar_last.
    { apply is_derive_scal. apply (is_derive_comp exp h); [apply is_derive_exp|now apply ig_h_d]. }
    unfold scal. cbn. unfold mult. cbn. ring.
Qed.
(** the reciprocal *)
Definition ig_g x := / ig_c * exp (- h x).
Lemma ig_g_f x : 0 < x -> ig_g x * f x = 1.
Proof.
  intros H. pose proof ig_c_pos. rewrite ig_f by auto. unfold ig_g. rewrite exp_Ropp.
  pose proof (exp_pos (h x)). field. lra.
Qed.
Lemma ig_g_pos x : 0 < ig_g x.
Proof. pose proof ig_c_pos. apply Rmult_lt_0_compat; [now apply Rinv_0_lt_compat|apply exp_pos]. Qed.
Lemma ig_g_derive x : 0 < x -> is_derive ig_g x (ig_k x * ig_g x).
Proof.
  intros H. unfold ig_g. evar_last.
  { apply is_derive_scal. apply (is_derive_comp exp (fun x => - h x)); [apply is_derive_exp|].
    apply (is_derive_opp h). now apply ig_h_d. }
  unfold scal. cbn. unfold mult, opp. cbn. ring.
Qed.
Lemma ig_k_derive x : 0 < x -> is_derive ig_k x (- 3 / (2 * x ^ 2) + l / x ^ 3).
Proof.
  intros H. unfold ig_k. auto_derive.
  - assert (0 < mu * (mu * 1) * (x * (x * 1))) by (repeat apply Rmult_lt_0_compat; lra). lra.
  - field. lra.
Qed.
Lemma ig_convex x : 0 < x -> 0 <= - 3 / (2 * x ^ 2) + l / x ^ 3 + ig_k x ^ 2.
Proof.
  intros H. set (A := 3 / (2 * x)). set (B := l / (2 * x ^ 2)). set (c := l / (2 * mu ^ 2)).
  assert (0 < A) by (apply Rdiv_lt_0_compat; lra).
  assert (0 < x ^ 2) by now apply pow_lt. assert (0 < mu ^ 2) by now apply pow_lt.
  assert (0 < B) by (apply Rdiv_lt_0_compat; lra). assert (0 < c) by (apply Rdiv_lt_0_compat; lra).
  assert (K : ig_k x = A + c - B) by (unfold ig_k, A, B, c; field; lra).
  assert (D : - 3 / (2 * x ^ 2) + l / x ^ 3 = 2 * A / 3 * (2 * B - A)) by (unfold A, B; field; lra).
  rewrite D, K. clearbody A B c. clear - H0 H3 H4.
  destruct (Rle_dec A (2 * B)).
  - pose proof (pow2_ge_0 (A + c - B)). assert (0 <= 2 * A / 3 * (2 * B - A)) by (apply Rmult_le_pos; lra). lra.
  - assert ((A - B) ^ 2 <= (A + c - B) ^ 2) by nra.
    assert (0 <= 2 * A / 3 * (2 * B - A) + (A - B) ^ 2) by nra. lra.
Qed.
(** the slope of the reciprocal is monotone, and its graph lies above its tangents *)
Lemma ig_slope x y : 0 < x -> x <= y -> ig_k x * ig_g x <= ig_k y * ig_g y.
Proof.
  intros Hx [H| ->]; [|lra].
  destruct (mvt (fun x => ig_k x * ig_g x) (fun x => (- 3 / (2 * x ^ 2) + l / x ^ 3 + ig_k x ^ 2) * ig_g x) x y) as (c & Hc & E); auto.
  - intros z Hz. evar_last; [apply (is_derive_mult ig_k ig_g); [apply ig_k_derive; lra|apply ig_g_derive; lra|intros; apply Rmult_comm]|].
    unfold plus, mult. cbn. ring.
  - intros z Hz. apply continuity_pt_mult; eapply derive_cont_pt; [apply ig_k_derive|apply ig_g_derive]; lra.
  - assert (0 <= (- 3 / (2 * c ^ 2) + l / c ^ 3 + ig_k c ^ 2) * ig_g c).
    { apply Rmult_le_pos; [apply ig_convex; lra|left; apply ig_g_pos]. }
    cbn beta in E. nra.
Qed.
Lemma ig_tangent x y : 0 < x -> 0 < y -> ig_g x * (1 + (y - x) * ig_k x) <= ig_g y.
Proof.
  intros Hx Hy. destruct (Rtotal_order x y) as [H|[->|H]]; [| |].
  - destruct (mvt ig_g (fun x => ig_k x * ig_g x) x y) as (c & Hc & E); auto.
    + intros. apply ig_g_derive. lra.
    + intros z Hz. eapply derive_cont_pt, ig_g_derive. lra.
    + pose proof (ig_slope x c Hx ltac:(lra)). nra.
  - lra.
  - destruct (mvt ig_g (fun x => ig_k x * ig_g x) y x) as (c & Hc & E); auto.
    + intros. apply ig_g_derive. lra.
    + intros z Hz. eapply derive_cont_pt, ig_g_derive. lra.
    + pose proof (ig_slope c x ltac:(lra) ltac:(lra)). nra.
Qed.
Lemma ig_tangent_f x y : 0 < x -> 0 < y -> f y * (1 + (y - x) * ig_k x) <= f x.
Proof.
  intros Hx Hy. pose proof (ig_tangent x y Hx Hy) as T. pose proof (ig_g_f x Hx) as X. pose proof (ig_g_f y Hy) as Y.
  assert (Fx : 0 < f x) by now apply invgauss_pdf_pos. assert (Fy : 0 < f y) by now apply invgauss_pdf_pos.
  apply (Rmult_le_compat_l (f x * f y)) in T; [|nra].
  replace (f x * f y * (ig_g x * (1 + (y - x) * ig_k x))) with ((ig_g x * f x) * (f y * (1 + (y - x) * ig_k x))) in T by ring.
  replace (f x * f y * ig_g y) with (f x * (ig_g y * f y)) in T by ring.
  rewrite X, Y in T. lra.
Qed.

(** residual after one step from q with residual d *)
Definition ig_res q d := d - (F (q + d / f q) - F q).

Lemma ig_res_d q d d' : 0 < q -> 0 < q + d / f q -> d <= d' -> (m <= q /\ 0 <= d \/ q <= m /\ d' <= 0) ->
  ig_res q d <= ig_res q d'.
Proof.
  intros Hq Hs [H| ->] B; [|lra]. assert (Fq : 0 < f q) by now apply invgauss_pdf_pos.
  assert (M : forall z, d <= z -> 0 < q + z / f q).
  { intros z Hz. apply (Rmult_le_compat_r (/ f q)) in Hz; [|left; now apply Rinv_0_lt_compat]. unfold Rdiv in *. lra. }
  assert (Dv : forall z, d <= z -> is_derive (ig_res q) z (1 - f (q + z / f q) * / f q)).
  { intros z Hz. unfold ig_res.
    apply (is_derive_minus (fun d => d) (fun d => F (q + d / f q) - F q)); [apply (is_derive_id (K:=R_AbsRing) z)|].
    evar_last; [apply (is_derive_minus (fun d => F (q + d / f q)) (fun _ => F q)); [|apply is_derive_const]|].
    - apply (is_derive_comp F (fun d => q + d / f q)); [apply invgauss_cdf_derive; auto|].
      instantiate (1 := / f q). auto_derive; [lra|ring].
    - unfold minus, plus, opp, zero, scal. cbn. unfold mult. cbn. ring. }
  destruct (mvt (ig_res q) (fun z => 1 - f (q + z / f q) * / f q) d d') as (c & Hc & E); auto.
  - intros. apply Dv. lra.
  - intros z Hz. eapply derive_cont_pt, Dv. lra.
  - assert (f (q + c / f q) <= f q).
    { specialize (M c ltac:(lra)). destruct B as [(B1 & B2)|(B1 & B2)].
      - apply ig_pdf_down; auto. assert (0 <= c / f q) by (apply Rmult_le_pos; [lra|left; now apply Rinv_0_lt_compat]). lra.
      - apply ig_pdf_up; auto. assert (0 <= - c / f q) by (apply Rmult_le_pos; [lra|left; now apply Rinv_0_lt_compat]). unfold Rdiv in *. lra. }
    assert (f (q + c / f q) * / f q <= 1).
    { apply (Rmult_le_reg_r (f q)); auto. rewrite Rmult_assoc, Rinv_l; lra. }
    nra.
Qed.
Lemma ig_res_q q q' d : 0 < q -> q <= q' -> 0 < q + d / f q -> (m <= q /\ 0 <= d \/ q' <= m /\ d <= 0) ->
  ig_res q d <= ig_res q' d.
Proof.
  intros Hq [H| ->] Hs B; [|lra].
  assert (M : forall z, q <= z <= q' -> 0 < z + d / f z).
  { intros z Hz. assert (Fq : 0 < f q) by now apply invgauss_pdf_pos. assert (Fz : 0 < f z) by (apply invgauss_pdf_pos; lra).
    destruct B as [(B1 & B2)|(B1 & B2)].
    - assert (0 <= d / f z) by (apply Rmult_le_pos; [lra|left; now apply Rinv_0_lt_compat]). lra.
    - assert (f q <= f z) by (apply ig_pdf_up; lra).
      assert (/ f z <= / f q) by (apply Rinv_le_contravar; lra). unfold Rdiv in *. nra. }
  assert (Dv : forall z, q <= z <= q' -> is_derive (fun q => ig_res q d) z (f z - f (z + d / f z) * (1 + d / f z * ig_k z))).
  { intros z Hz. assert (Fz : 0 < f z) by (apply invgauss_pdf_pos; lra). unfold ig_res.
    evar_last.
    - apply (is_derive_minus (fun _ => d) (fun q => F (q + d / f q) - F q)); [apply is_derive_const|].
      apply (is_derive_minus (fun q => F (q + d / f q)) F); [|apply invgauss_cdf_derive; auto; lra].
      apply (is_derive_comp F (fun q => q + d / f q)); [apply invgauss_cdf_derive; auto|].
      apply (is_derive_plus (fun q => q) (fun q => d / f q)); [apply (is_derive_id (K:=R_AbsRing) z)|].
      apply is_derive_scal. apply is_derive_inv; [apply ig_f_derive; lra|lra].
    - unfold minus, plus, opp, zero, one, scal. cbn. unfold mult. cbn. field. lra. }
  destruct (mvt (fun q => ig_res q d) (fun z => f z - f (z + d / f z) * (1 + d / f z * ig_k z)) q q') as (c & Hc & E); auto.
  - intros. apply Dv. lra.
  - intros z Hz. eapply derive_cont_pt, Dv. lra.
  - pose proof (ig_tangent_f c (c + d / f c) ltac:(lra) (M c ltac:(lra))) as T.
    replace (c + d / f c - c) with (d / f c) in T by ring. cbn beta in E. nra.
Qed.
(** both iterates and residuals stay ordered *)
Definition ordered p q p' q' := q <= q' /\ p - F q <= p' - F q'.
Lemma ig_res_step p q : ig_res q (p - F q) = p - F (ig_step mu l p q).
Proof. unfold ig_res, ig_step. ring. Qed.
Lemma step_right p q s p' q' s' : F s = p -> F s' = p' -> m <= q <= s -> m <= q' <= s' ->
  ordered p q p' q' -> ordered p (ig_step mu l p q) p' (ig_step mu l p' q').
Proof.
  intros E E' Hq Hq' (O1 & O2). destruct (ig_mode_root mu l Hmu Hl) as (Hm & _).
  pose proof (ig_step_right mu l Hmu Hl p s q E ltac:(lra) ltac:(lra)) as B.
  pose proof (ig_step_right mu l Hmu Hl p' s' q' E' ltac:(lra) ltac:(lra)) as B'.
  assert (Fq : 0 < f q) by (apply invgauss_pdf_pos; lra). assert (Fq' : 0 < f q') by (apply invgauss_pdf_pos; lra).
  assert (MF : forall x y, 0 < x -> x <= y -> F x <= F y).
  { intros x y Hx [L| ->]; [left; now apply invgauss_cdf_slt|lra]. }
  assert (P : 0 <= p - F q) by (rewrite <- E; pose proof (MF q s ltac:(lra) ltac:(lra)); lra).
  assert (Dn : f q' <= f q) by (apply ig_pdf_down; lra).
  assert (In : / f q <= / f q') by (apply Rinv_le_contravar; lra).
  split.
  - unfold ig_step. assert (0 < / f q) by now apply Rinv_0_lt_compat.
    assert ((p - F q) / f q <= (p' - F q') / f q') by (unfold Rdiv; apply Rmult_le_compat; lra). lra.
  - rewrite <- !ig_res_step.
    apply Rle_trans with (ig_res q' (p - F q)).
    + apply ig_res_q; try lra. unfold ig_step in B. lra.
    + apply ig_res_d; try lra. assert (0 <= (p - F q) / f q') by (apply Rmult_le_pos; [lra|left; now apply Rinv_0_lt_compat]). lra.
Qed.
Lemma step_left p q s p' q' s' : 0 < s -> F s = p -> 0 < s' -> F s' = p' -> s <= q <= m -> s' <= q' <= m ->
  ordered p q p' q' -> ordered p (ig_step mu l p q) p' (ig_step mu l p' q').
Proof.
  intros Hs E Hs' E' Hq Hq' (O1 & O2).
  pose proof (ig_step_left mu l Hmu Hl p s q Hs E ltac:(lra) ltac:(lra)) as B.
  pose proof (ig_step_left mu l Hmu Hl p' s' q' Hs' E' ltac:(lra) ltac:(lra)) as B'.
  assert (Fq : 0 < f q) by (apply invgauss_pdf_pos; lra). assert (Fq' : 0 < f q') by (apply invgauss_pdf_pos; lra).
  assert (MF : forall x y, 0 < x -> x <= y -> F x <= F y).
  { intros x y Hx [L| ->]; [left; now apply invgauss_cdf_slt|lra]. }
  assert (P : p' - F q' <= 0) by (rewrite <- E'; pose proof (MF s' q' ltac:(lra) ltac:(lra)); lra).
  assert (Up : f q <= f q') by (apply ig_pdf_up; lra).
  assert (In : / f q' <= / f q) by (apply Rinv_le_contravar; lra).
  assert (0 < / f q') by now apply Rinv_0_lt_compat.
  assert (W : (p - F q) / f q <= (p - F q) / f q') by (unfold Rdiv; nra).
  split.
  - unfold ig_step. assert ((p - F q) / f q' <= (p' - F q') / f q') by (unfold Rdiv; apply Rmult_le_compat_r; lra). lra.
  - rewrite <- !ig_res_step. unfold ig_step in B.
    apply Rle_trans with (ig_res q' (p - F q)).
    + apply ig_res_q; lra.
    + apply ig_res_d; lra.
Qed.
End IG.
