(** The error function as an integral, the Gaussian integral, and what follows:
    derivative, symmetry, range, limits, inverse. *)
From Coq Require Import Reals Lra Psatz.
From Coquelicot Require Import Coquelicot.
From Verif Require Import RealElem Analysis.
Local Open Scope R_scope.

(** ** The Gaussian integral *)
Definition gauss_int (x : R) : R := RInt (fun t => exp (- t ^ 2)) 0 x.
Lemma cont_gauss x : continuous (fun t => exp (- t ^ 2)) x.
Proof. apply (ex_derive_continuous (fun t => exp (- t ^ 2))). auto_derive. auto. Qed.
Lemma ex_gauss a b : ex_RInt (fun t => exp (- t ^ 2)) a b.
Proof. apply (@ex_RInt_continuous R_CompleteNormedModule). intros. apply cont_gauss. Qed.
Lemma gauss_int_derive x : is_derive gauss_int x (exp (- x ^ 2)).
Proof.
  apply (is_derive_RInt (fun t => exp (- t ^ 2)) gauss_int 0).
  - apply filter_forall. intros y. apply (RInt_correct (fun t => exp (- t ^ 2))), ex_gauss.
  - apply cont_gauss.
Qed.
Lemma gauss_int_0 : gauss_int 0 = 0.
Proof. unfold gauss_int. apply (@RInt_point R_CompleteNormedModule). Qed.
Lemma gauss_int_odd x : gauss_int (- x) = - gauss_int x.
Proof.
  assert (H : forall x, 0 <= x -> gauss_int (- x) = - gauss_int x).
  { clear. intros x Hx.
    assert (gauss_int (- x) - gauss_int (- 0) = - gauss_int x - - gauss_int 0) as E.
    { apply (eq_of_derive (fun t => gauss_int (- t)) (fun t => - gauss_int t)
              (fun t => - exp (- t ^ 2)) 0 x Hx).
      - intros t _. apply (d_eq _ _ (-1 * exp (- (- t) ^ 2))).
        + apply (d_comp gauss_int (fun t => - t)); [apply gauss_int_derive|].
          auto_derive; auto. 
        + replace ((- t) ^ 2) with (t ^ 2) by ring. ring.
      - intros t _. apply d_opp, gauss_int_derive.
      - intros t _. apply (derive_cont_pt _ _ (-1 * exp (- (- t) ^ 2))).
        apply (d_comp gauss_int (fun t => - t)); [apply gauss_int_derive|]. auto_derive; auto.
      - intros t _. apply (derive_cont_pt _ _ (- exp (- t ^ 2))). apply d_opp, gauss_int_derive. }
    rewrite Ropp_0, gauss_int_0 in E. lra. }
  destruct (Rle_lt_dec 0 x) as [Hx|Hx]; [now apply H|].
  pose proof (H (- x) ltac:(lra)) as E. rewrite Ropp_involutive in E. lra.
Qed.
(** the auxiliary integral *)
Definition gauss_f (x t : R) : R := exp (- (x ^ 2 * (1 + t ^ 2))) / (1 + t ^ 2).
Definition gauss_J (x : R) : R := RInt (gauss_f x) 0 1.
Lemma one_sq t : 0 < 1 + t ^ 2. Proof. nra. Qed.
Lemma gauss_f_derive x t : is_derive (fun x => gauss_f x t) x (- 2 * x * exp (- (x ^ 2 * (1 + t ^ 2)))).
Proof.
  pose proof (one_sq t). unfold gauss_f. auto_derive; [cbn in *; lra|]. cbn. field. cbn in *. lra.
Qed.
Lemma gauss_f_cont x t : continuous (gauss_f x) t.
Proof.
  apply (ex_derive_continuous (gauss_f x)). pose proof (one_sq t). unfold gauss_f.
  auto_derive. cbn in *. lra.
Qed.
Lemma ex_gauss_f x a b : ex_RInt (gauss_f x) a b.
Proof. apply (@ex_RInt_continuous R_CompleteNormedModule). intros. apply gauss_f_cont. Qed.
Lemma gauss_J_derive x : is_derive gauss_J x (- 2 * exp (- x ^ 2) * gauss_int x).
Proof.
  apply (d_eq _ _ (RInt (fun t => Derive (fun u => gauss_f u t) x) 0 1)).
  - unfold gauss_J. apply (is_derive_RInt_param gauss_f 0 1 x).
    + apply filter_forall. intros y t _. eexists. apply gauss_f_derive.
    + intros t _. 
      apply (continuity_2d_pt_ext (fun u v => - 2 * u * exp (- (u ^ 2 * (1 + v ^ 2))))).
      { intros u v. symmetry. apply is_derive_unique, gauss_f_derive. }
      apply continuity_2d_pt_mult.
      * apply continuity_2d_pt_mult; [apply continuity_2d_pt_const|apply continuity_2d_pt_id1].
      * apply (continuity_1d_2d_pt_comp exp (fun u v => - (u ^ 2 * (1 + v ^ 2)))).
        { apply derivable_continuous_pt, derivable_pt_exp. }
        apply continuity_2d_pt_opp, continuity_2d_pt_mult.
        -- apply (continuity_2d_pt_ext (fun u v => u * u)). { intros; ring. }
           apply continuity_2d_pt_mult; apply continuity_2d_pt_id1.
        -- apply continuity_2d_pt_plus; [apply continuity_2d_pt_const|].
           apply (continuity_2d_pt_ext (fun u v => v * v)). { intros; ring. }
           apply continuity_2d_pt_mult; apply continuity_2d_pt_id2.
    + apply filter_forall. intros y. apply ex_gauss_f.
  - rewrite (rint_ext _ (fun t => (- 2 * exp (- x ^ 2)) * (x * exp (- (x * t + 0) ^ 2)))).
    2:{ intros t _. transitivity (- 2 * x * exp (- (x ^ 2 * (1 + t ^ 2)))).
        { apply is_derive_unique, gauss_f_derive. }
        replace (- (x ^ 2 * (1 + t ^ 2))) with (- x ^ 2 + - (x * t + 0) ^ 2) by ring.
        rewrite exp_plus. ring. }
    rewrite (rint_scal (fun t => x * exp (- (x * t + 0) ^ 2))).
    + f_equal. etransitivity; [exact (RInt_comp_lin (fun t => exp (- t ^ 2)) x 0 0 1 (ex_gauss _ _))|].
      unfold gauss_int. f_equal; ring.
    + apply (@ex_RInt_continuous R_CompleteNormedModule). intros z _.
      apply (ex_derive_continuous (fun t => x * exp (- (x * t + 0) ^ 2))). auto_derive. auto.
Qed.
Lemma gauss_J_0 : gauss_J 0 = PI / 4.
Proof.
  unfold gauss_J. rewrite (rint_ext _ (fun t => / (1 + t ^ 2))).
  2:{ intros t _. unfold gauss_f. replace (- (0 ^ 2 * (1 + t ^ 2))) with 0 by ring.
      rewrite exp_0. unfold Rdiv. ring. }
  rewrite (rint_derive atan).
  - rewrite atan_1, atan_0. lra.
  - intros. apply is_derive_atan.
  - intros t _. apply (ex_derive_continuous (fun t => / (1 + t ^ 2))). pose proof (one_sq t).
    auto_derive. cbn in *. lra.
Qed.
Lemma gauss_sq x : 0 <= x -> gauss_int x ^ 2 + gauss_J x = PI / 4.
Proof.
  intros Hx.
  assert (H : forall t, is_derive (fun t => gauss_int t ^ 2 + gauss_J t) t 0).
  { intros t. apply (d_eq _ _ ((exp (- t ^ 2) * gauss_int t + gauss_int t * exp (- t ^ 2))
                              + - 2 * exp (- t ^ 2) * gauss_int t)); [|ring].
    apply d_plus; [|apply gauss_J_derive].
    apply (is_derive_ext (fun t => gauss_int t * gauss_int t)).
    { intros; cbn; ring. }
    apply d_mult; apply gauss_int_derive. }
  assert (E : gauss_int x ^ 2 + gauss_J x - (gauss_int 0 ^ 2 + gauss_J 0) = 0 - 0).
  { apply (eq_of_derive (fun t => gauss_int t ^ 2 + gauss_J t) (fun _ => 0) (fun _ => 0) 0 x Hx).
    - intros; apply H.
    - intros; apply d_const.
    - intros t _. apply (derive_cont_pt _ _ 0), H.
    - intros t _. apply (derive_cont_pt _ _ 0), d_const. }
  rewrite gauss_int_0, gauss_J_0 in E. lra.
Qed.
Lemma gauss_J_bounds x : 0 < gauss_J x <= exp (- x ^ 2).
Proof.
  unfold gauss_J. split.
  - apply (RInt_gt_0 (gauss_f x) 0 1); [lra| |].
    + intros t _. unfold gauss_f. apply Rdiv_lt_0_compat; [apply exp_pos|apply one_sq].
    + intros. apply gauss_f_cont.
  - apply (Rle_trans _ (RInt (fun _ => exp (- x ^ 2)) 0 1)).
    + apply RInt_le; [lra|apply ex_gauss_f|apply ex_RInt_const|].
      intros t Ht. unfold gauss_f. pose proof (one_sq t).
      assert (exp (- (x ^ 2 * (1 + t ^ 2))) <= exp (- x ^ 2)).
      { apply exp_le_compat. assert (0 <= x ^ 2 * t ^ 2) by nra. nra. }
      pose proof (exp_pos (- (x ^ 2 * (1 + t ^ 2)))).
      apply (Rmult_le_reg_r (1 + t ^ 2)); auto. unfold Rdiv. rewrite Rmult_assoc, Rinv_l by lra.
      pose proof (exp_pos (- x ^ 2)). nra.
    + rewrite RInt_const. unfold scal. cbn. unfold mult. cbn. lra.
Qed.

(** ** erf *)
Definition erfR (x : R) : R := 2 / sqrt PI * gauss_int x.
Lemma sqrt_PI_pos : 0 < sqrt PI. Proof. apply sqrt_lt_R0, PI_RGT_0. Qed.
Lemma erfR_derive x : is_derive erfR x (2 / sqrt PI * exp (- x ^ 2)).
Proof. apply d_scal, gauss_int_derive. Qed.
Lemma erfR_cont x : continuity_pt erfR x.
Proof. eapply derive_cont_pt, erfR_derive. Qed.
Lemma erfR_0 : erfR 0 = 0.
Proof. unfold erfR. rewrite gauss_int_0. ring. Qed.
Lemma erfR_odd x : erfR (- x) = - erfR x.
Proof. unfold erfR. rewrite gauss_int_odd. ring. Qed.
Lemma erfR_slt x y : x < y -> erfR x < erfR y.
Proof.
  intros H. apply (smono_of_derive erfR (fun x => 2 / sqrt PI * exp (- x ^ 2))); auto.
  - intros. apply erfR_derive.
  - intros t _. apply Rmult_lt_0_compat; [|apply exp_pos].
    apply Rdiv_lt_0_compat; [lra|apply sqrt_PI_pos].
  - intros. apply erfR_cont.
Qed.
Lemma erfR_le x y : x <= y -> erfR x <= erfR y.
Proof. intros [H| ->]; [left; now apply erfR_slt|lra]. Qed.
Lemma erfR_inj x y : erfR x = erfR y -> x = y.
Proof.
  intros H. destruct (Rtotal_order x y) as [L|[->|L]]; auto; apply erfR_slt in L; lra.
Qed.
Lemma erfR_sq x : 0 <= x -> erfR x ^ 2 = 1 - 4 / PI * gauss_J x.
Proof.
  intros Hx. unfold erfR. pose proof (gauss_sq x Hx) as H. pose proof sqrt_PI_pos as Hp.
  pose proof PI_RGT_0. assert (Hs : sqrt PI * sqrt PI = PI) by (apply sqrt_sqrt; lra).
  replace ((2 / sqrt PI * gauss_int x) ^ 2) with (4 / (sqrt PI * sqrt PI) * gauss_int x ^ 2)
    by (field; lra).
  rewrite Hs. replace (gauss_int x ^ 2) with (PI / 4 - gauss_J x) by lra. field. lra.
Qed.
Lemma erfR_range x : -1 < erfR x < 1.
Proof.
  assert (H : forall x, 0 <= x -> 0 <= erfR x < 1).
  { clear. intros x Hx. split.
    - rewrite <- erfR_0. now apply erfR_le.
    - pose proof (erfR_sq x Hx). pose proof (gauss_J_bounds x).
      assert (0 < 4 / PI * gauss_J x).
      { apply Rmult_lt_0_compat; [|tauto]. apply Rdiv_lt_0_compat; [lra|apply PI_RGT_0]. }
      nra. }
  destruct (Rle_lt_dec 0 x) as [Hx|Hx].
  - specialize (H x Hx). lra.
  - specialize (H (- x) ltac:(lra)). rewrite erfR_odd in H. lra.
Qed.
(** erf gets as close to 1 as desired *)
Lemma erfR_near_1 y : y < 1 -> exists x, 0 < x /\ y < erfR x.
Proof.
  intros Hy. destruct (Rle_lt_dec y 0) as [H0|H0].
  { exists 1. split; [lra|]. rewrite <- erfR_0 in H0. pose proof (erfR_slt 0 1). lra. }
  pose proof PI_RGT_0 as HP.
  assert (Hc : 0 < (1 - y ^ 2) * PI / 4).
  { apply Rdiv_lt_0_compat; [|lra]. apply Rmult_lt_0_compat; [|lra]. nra. }
  set (c := (1 - y ^ 2) * PI / 4) in *.
  (* exp(-x^2) <= 1/(1+x^2) <= c for x^2 = 1/c *)
  exists (sqrt (/ c)). assert (Hic : 0 < / c) by now apply Rinv_0_lt_compat.
  split; [now apply sqrt_lt_R0|].
  pose proof (erfR_sq (sqrt (/ c)) ltac:(apply sqrt_pos)) as E.
  pose proof (gauss_J_bounds (sqrt (/ c))) as [_ HJ].
  assert (Hsq : sqrt (/ c) ^ 2 = / c) by (rewrite <- Rsqr_pow2; apply Rsqr_sqrt; lra).
  rewrite Hsq in HJ.
  assert (He : exp (- / c) < c).
  { rewrite exp_Ropp. pose proof (exp_ineq1 (/ c) ltac:(lra)) as H.
    replace c with (/ / c) at 2 by (apply Rinv_involutive; lra).
    apply Rinv_lt_contravar; [|lra]. apply Rmult_lt_0_compat; [auto|apply exp_pos]. }
  assert (H1 : 4 / PI * gauss_J (sqrt (/ c)) < 1 - y ^ 2).
  { apply (Rlt_le_trans _ (4 / PI * c)).
    - apply Rmult_lt_compat_l; [apply Rdiv_lt_0_compat; lra|lra].
    - right. unfold c. field. lra. }
  assert (0 <= erfR (sqrt (/ c))) by (rewrite <- erfR_0; apply erfR_le, sqrt_pos).
  nra.
Qed.
(** every value in (-1,1) is attained *)
Lemma erfR_surj y : -1 < y < 1 -> exists x, erfR x = y.
Proof.
  intros Hy. destruct (erfR_near_1 y) as (b & Hb & Eb); [lra|].
  destruct (erfR_near_1 (- y)) as (a & Ha & Ea); [lra|].
  destruct (ivt erfR (- a) b y) as (x & _ & E); [lra| | |eauto].
  - intros; apply erfR_cont.
  - rewrite erfR_odd. lra.
Qed.
