(** The incomplete beta function on the reals and its relation to the gamma
    function. *)
From Coq Require Import Reals Lra Lia Psatz.
From Coquelicot Require Import Coquelicot.
From Verif Require Import RealElem Analysis PowInt GammaFn.
Local Open Scope R_scope.

Lemma d_om (x : R) : is_derive (fun t => 1 - t) x (-1).
Proof. apply (d_eq _ _ (0 - 1)); [|lra]. apply d_minus; [apply d_const|apply (@is_derive_id R_AbsRing)]. Qed.
Lemma d_xs (s x : R) : is_derive (fun t => t * s) x s.
Proof. apply (d_eq _ _ (1 * s + x * 0)); [|lra]. apply (d_mult (fun t => t) (fun _ => s)); [apply (@is_derive_id R_AbsRing)|apply d_const]. Qed.
(** integral of t^(a-1) (1-t)^(b-1) over [0,x], x < 1 *)
Definition betaL (a b x : R) : R := sing a (fun t => Rpower (1 - t) (b - 1)) x.
Lemma om_cont b y : y < 1 -> continuous (fun t => Rpower (1 - t) (b - 1)) y.
Proof.
  intros Hy. apply (ex_derive_continuous (fun t => Rpower (1 - t) (b - 1))).
  eexists. apply (d_comp (fun u => Rpower u (b - 1)) (fun t => 1 - t)).
  - apply is_derive_Rpower. lra.
  - auto_derive; auto.
Qed.
Lemma betaL_0 a b : betaL a b 0 = 0. Proof. apply sing_0. Qed.
Lemma betaL_derive a b x : 0 < a -> 0 < x < 1 ->
  is_derive (betaL a b) x (Rpower x (a - 1) * Rpower (1 - x) (b - 1)).
Proof.
  intros Ha Hx. apply (sing_derive a (fun t => Rpower (1 - t) (b - 1)) 1); auto; try lra.
  intros; apply om_cont; lra.
Qed.
Lemma betaL_cont a b x : 0 < a -> x < 1 -> continuity_pt (betaL a b) x.
Proof.
  intros Ha Hx. apply (sing_cont a (fun t => Rpower (1 - t) (b - 1)) 1); auto; try lra.
  intros; apply om_cont; lra.
Qed.
Lemma betaL_np a b x : x <= 0 -> betaL a b x = 0.
Proof. intros. unfold betaL, sing. rewrite pw_np, rint_point by auto. ring. Qed.
Lemma betaL_RInt_gen a b x : 0 < a -> 0 < x < 1 ->
  is_RInt_gen (fun t => Rpower t (a - 1) * Rpower (1 - t) (b - 1)) (at_right 0) (at_point x) (betaL a b x).
Proof.
  intros Ha Hx. apply (sing_RInt_gen a (fun t => Rpower (1 - t) (b - 1)) 1); auto; try lra.
  intros; apply om_cont; lra.
Qed.
Lemma beta_d_pos a b x : 0 < Rpower x (a - 1) * Rpower (1 - x) (b - 1).
Proof. apply Rmult_lt_0_compat; apply Rpower_pos. Qed.
Lemma betaL_slt a b x y : 0 < a -> 0 <= x -> x < y -> y < 1 -> betaL a b x < betaL a b y.
Proof.
  intros Ha Hx Hxy Hy.
  apply (smono_of_derive (betaL a b) (fun x => Rpower x (a - 1) * Rpower (1 - x) (b - 1))); auto.
  - intros. apply betaL_derive; lra.
  - intros. apply beta_d_pos.
  - intros. apply betaL_cont; lra.
Qed.
Lemma betaL_pos a b x : 0 < a -> 0 < x < 1 -> 0 < betaL a b x.
Proof. intros. rewrite <- (betaL_0 a b). apply betaL_slt; lra. Qed.

(** the complete beta function; the two halves meet at 1/2 *)
Definition Beta (a b : R) : R := betaL a b (/ 2) + betaL b a (/ 2).
Lemma Beta_sym a b : Beta a b = Beta b a.
Proof. unfold Beta. ring. Qed.
Lemma Beta_pos a b : 0 < a -> 0 < b -> 0 < Beta a b.
Proof.
  intros. unfold Beta. pose proof (betaL_pos a b (/ 2)). pose proof (betaL_pos b a (/ 2)). lra.
Qed.
Lemma betaL_split a b x : 0 < a -> 0 < b -> 0 < x < 1 -> betaL a b x + betaL b a (1 - x) = Beta a b.
Proof.
  intros Ha Hb.
  assert (HD : forall t, 0 < t < 1 -> is_derive (fun t => betaL a b t + betaL b a (1 - t)) t 0).
  { intros t Ht.
    apply (d_eq _ _ (Rpower t (a - 1) * Rpower (1 - t) (b - 1)
        + (-1) * (Rpower (1 - t) (b - 1) * Rpower (1 - (1 - t)) (a - 1)))).
    - apply d_plus; [now apply betaL_derive|].
      apply (d_comp (betaL b a) (fun t => 1 - t)).
      + apply betaL_derive; lra.
      + apply d_om.
    - replace (1 - (1 - t)) with t by ring. ring. }
  assert (HE : forall x y, 0 < x -> x <= y -> y < 1 ->
    betaL a b y + betaL b a (1 - y) - (betaL a b x + betaL b a (1 - x)) = 0 - 0).
  { intros u v Hu Huv Hv.
    apply (eq_of_derive (fun t => betaL a b t + betaL b a (1 - t)) (fun _ => 0) (fun _ => 0) u v); auto.
    - intros. apply HD. lra.
    - intros. apply d_const.
    - intros t Ht. apply (derive_cont_pt _ _ 0), HD. lra.
    - intros t Ht. apply (derive_cont_pt _ _ 0), d_const. }
  intros Hx. unfold Beta. replace (/ 2) with (1 - / 2) at 2 by lra.
  destruct (Rle_lt_dec x (/ 2)) as [L|L].
  - specialize (HE x (/ 2)). lra.
  - specialize (HE (/ 2) x). lra.
Qed.
Lemma betaL_lt_Beta a b x : 0 < a -> 0 < b -> x < 1 -> betaL a b x < Beta a b.
Proof.
  intros Ha Hb Hx. destruct (Rle_lt_dec x 0).
  - rewrite betaL_np by auto. now apply Beta_pos.
  - pose proof (betaL_split a b x Ha Hb ltac:(lra)). pose proof (betaL_pos b a (1 - x) Hb). lra.
Qed.

(** ** regularised: I_x(a,b), as a function on the whole line *)
Definition IB (a b x : R) : R :=
  if Rle_dec x (/ 2) then betaL a b x / Beta a b else 1 - betaL b a (1 - x) / Beta a b.
Lemma IB_low a b x : 0 < a -> 0 < b -> x < 1 -> IB a b x = betaL a b x / Beta a b.
Proof.
  intros Ha Hb Hx. unfold IB. destruct Rle_dec as [|H]; auto. pose proof (Beta_pos a b Ha Hb).
  rewrite <- (betaL_split a b x Ha Hb ltac:(lra)) in *. field. lra.
Qed.
Lemma IB_high a b x : 0 < a -> 0 < b -> 0 < x -> IB a b x = 1 - betaL b a (1 - x) / Beta a b.
Proof.
  intros Ha Hb Hx. unfold IB. destruct Rle_dec as [H|]; auto. pose proof (Beta_pos a b Ha Hb).
  rewrite <- (betaL_split a b x Ha Hb ltac:(lra)) in *. field. lra.
Qed.
Lemma IB_0 a b : 0 < a -> 0 < b -> IB a b 0 = 0.
Proof. intros. rewrite IB_low, betaL_0 by (auto; lra). unfold Rdiv. ring. Qed.
Lemma IB_1 a b : 0 < a -> 0 < b -> IB a b 1 = 1.
Proof.
  intros. rewrite IB_high by (auto; lra). replace (1 - 1) with 0 by ring. rewrite betaL_0. unfold Rdiv. ring.
Qed.
Lemma IB_sym a b x : 0 < a -> 0 < b -> IB a b x = 1 - IB b a (1 - x).
Proof.
  intros Ha Hb. destruct (Rlt_le_dec x 1) as [H|H].
  - rewrite IB_low, (IB_high b a) by (auto; lra). replace (1 - (1 - x)) with x by ring.
    rewrite (Beta_sym b a). ring.
  - rewrite IB_high, (IB_low b a) by (auto; lra). now rewrite (Beta_sym b a).
Qed.
Lemma IB_derive a b x : 0 < a -> 0 < b -> 0 < x < 1 ->
  is_derive (IB a b) x (Rpower x (a - 1) * Rpower (1 - x) (b - 1) / Beta a b).
Proof.
  intros Ha Hb Hx. pose proof (Beta_pos a b Ha Hb).
  apply (is_derive_ext_loc (fun x => / Beta a b * betaL a b x)).
  - assert (H1 : 0 < 1 - x) by lra. exists (mkposreal _ H1). intros y Hy. unfold ball in Hy. cbn in Hy.
    unfold AbsRing_ball, abs, minus, plus, opp in Hy. cbn in Hy. apply Rabs_def2 in Hy.
    rewrite IB_low by (auto; lra). apply Rmult_comm.
  - apply (d_eq _ _ (/ Beta a b * (Rpower x (a - 1) * Rpower (1 - x) (b - 1)))); [|unfold Rdiv; ring].
    now apply d_scal, betaL_derive.
Qed.
Lemma IB_cont a b x : 0 < a -> 0 < b -> continuity_pt (IB a b) x.
Proof.
  intros Ha Hb. apply cont_pt. destruct (Rlt_le_dec x 1) as [H|H].
  - apply (continuous_ext_loc _ (fun x => / Beta a b * betaL a b x)).
    + assert (H1 : 0 < 1 - x) by lra. exists (mkposreal _ H1). intros y Hy. unfold ball in Hy. cbn in Hy.
      unfold AbsRing_ball, abs, minus, plus, opp in Hy. cbn in Hy. apply Rabs_def2 in Hy.
      rewrite IB_low by (auto; lra). apply Rmult_comm.
    + apply (continuous_mult (fun _ => / Beta a b) (betaL a b)); [apply continuous_const|].
      apply cont_pt. now apply betaL_cont.
  - apply (continuous_ext_loc _ (fun x => 1 - / Beta a b * betaL b a (1 - x))).
    + assert (H1 : 0 < x) by lra. exists (mkposreal _ H1). intros y Hy. unfold ball in Hy. cbn in Hy.
      unfold AbsRing_ball, abs, minus, plus, opp in Hy. cbn in Hy. apply Rabs_def2 in Hy.
      rewrite IB_high by (auto; lra). unfold Rdiv. now rewrite (Rmult_comm (betaL b a (1 - y))).
    + apply cont_pt. apply continuity_pt_minus; [apply continuity_pt_const; red; auto|].
      apply continuity_pt_scal. apply (continuity_pt_comp (fun x => 1 - x) (betaL b a)).
      * apply continuity_pt_minus; [apply continuity_pt_const; red; auto|].
        apply derivable_continuous_pt, derivable_pt_id.
      * apply betaL_cont; lra.
Qed.
Lemma IB_slt a b x y : 0 < a -> 0 < b -> 0 <= x -> x < y -> y <= 1 -> IB a b x < IB a b y.
Proof.
  intros Ha Hb Hx Hxy Hy.
  apply (smono_of_derive (IB a b) (fun x => Rpower x (a - 1) * Rpower (1 - x) (b - 1) / Beta a b)); auto.
  - intros. apply IB_derive; auto; lra.
  - intros. apply Rdiv_lt_0_compat; [apply beta_d_pos|now apply Beta_pos].
  - intros. now apply IB_cont.
Qed.
Lemma IB_le a b x y : 0 < a -> 0 < b -> 0 <= x -> x <= y -> y <= 1 -> IB a b x <= IB a b y.
Proof. intros Ha Hb Hx [H| ->] Hy; [left; now apply IB_slt|lra]. Qed.
Lemma IB_range a b x : 0 < a -> 0 < b -> 0 <= x <= 1 -> 0 <= IB a b x <= 1.
Proof.
  intros Ha Hb Hx. rewrite <- (IB_0 a b Ha Hb) at 1. rewrite <- (IB_1 a b Ha Hb).
  split; apply IB_le; auto; lra.
Qed.
Lemma IB_srange a b x : 0 < a -> 0 < b -> 0 < x < 1 -> 0 < IB a b x < 1.
Proof.
  intros Ha Hb Hx. rewrite <- (IB_0 a b Ha Hb) at 1. rewrite <- (IB_1 a b Ha Hb).
  split; apply IB_slt; auto; lra.
Qed.
Lemma IB_inj a b x y : 0 < a -> 0 < b -> 0 <= x <= 1 -> 0 <= y <= 1 -> IB a b x = IB a b y -> x = y.
Proof.
  intros Ha Hb Hx Hy E. destruct (Rtotal_order x y) as [L|[->|L]]; auto;
    apply (IB_slt a b) in L; auto; lra.
Qed.
Lemma IB_surj a b p : 0 < a -> 0 < b -> 0 < p < 1 -> exists x, 0 < x < 1 /\ IB a b x = p.
Proof.
  intros Ha Hb Hp. apply (ivt (IB a b) 0 1 p); [lra|intros; now apply IB_cont|].
  rewrite IB_0, IB_1; auto.
Qed.

(** ** Beta(a,b) Gam(a+b) = Gam(a) Gam(b) *)
Section BG.
Variables a b : R.
Hypothesis Ha : 0 < a.
Hypothesis Hb : 0 < b.
Lemma Hib : 0 < / b. Proof. now apply Rinv_0_lt_compat. Qed.
Definition bj (x v : R) : R := Rpower (1 + pw v (/ b)) (- (a + b)) * lgam (a + b) (x * (1 + pw v (/ b))).
Definition bJ (x : R) : R := / b * RInt (bj x) 0 1.
Lemma one_pw v : 1 <= 1 + pw v (/ b). Proof. pose proof (pw_ge0 v (/ b)). lra. Qed.
Lemma wt_cont v : continuous (fun v => Rpower (1 + pw v (/ b)) (- (a + b))) v.
Proof.
  apply (continuous_comp (fun v => pw v (/ b)) (fun s => Rpower (1 + s) (- (a + b)))).
  - apply pw_cont, Hib.
  - apply (ex_derive_continuous (fun s => Rpower (1 + s) (- (a + b)))).
    eexists. apply (d_comp (fun u => Rpower u (- (a + b))) (fun s => 1 + s)).
    + apply is_derive_Rpower. pose proof (one_pw v). lra.
    + auto_derive; auto.
Qed.
Lemma bj_cont x v : continuous (bj x) v.
Proof.
  apply (continuous_mult (fun v => Rpower (1 + pw v (/ b)) (- (a + b)))
                         (fun v => lgam (a + b) (x * (1 + pw v (/ b))))).
  - apply wt_cont.
  - apply (continuous_comp (fun v => pw v (/ b)) (fun s => lgam (a + b) (x * (1 + s)))).
    + apply pw_cont, Hib.
    + apply (continuous_comp (fun s => x * (1 + s)) (lgam (a + b))).
      * apply (ex_derive_continuous (fun s => x * (1 + s))). auto_derive. auto.
      * apply cont_pt, lgam_cont. lra.
Qed.
Lemma bj_derive x v : 0 < x ->
  is_derive (fun x => bj x v) x (Rpower x (a + b - 1) * exp (- (x * (1 + pw v (/ b))))).
Proof.
  intros Hx. pose proof (one_pw v) as H1. set (s := 1 + pw v (/ b)) in *.
  apply (d_eq _ _ (Rpower s (- (a + b)) * (s * (Rpower (x * s) (a + b - 1) * exp (- (x * s)))))).
  - unfold bj. fold s. apply d_scal. apply (d_comp (lgam (a + b)) (fun x => x * s)).
    + apply lgam_derive; [lra|]. apply Rmult_lt_0_compat; lra.
    + apply d_xs.
  - rewrite <- Rpower_mult_distr by lra.
    assert (E : Rpower s (- (a + b)) * (s * Rpower s (a + b - 1)) = 1).
    { rewrite <- (Rpower_1 s) at 2 by lra. rewrite <- !Rpower_plus.
      replace (- (a + b) + (1 + (a + b - 1))) with 0 by ring. apply Rpower_O. lra. }
    transitivity ((Rpower s (- (a + b)) * (s * Rpower s (a + b - 1)))
                  * (Rpower x (a + b - 1) * exp (- (x * s)))); [ring|]. rewrite E. ring.
Qed.
Lemma lgam_scaled x : 0 < x ->
  lgam b x = / b * (pw x b * RInt (fun v => exp (- (x * pw v (/ b)))) 0 1).
Proof.
  intros Hx. unfold lgam, sing. f_equal.
  assert (Hp := pw_gt0 x b Hx).
  assert (C : forall u, continuous (fun v => exp (- pw v (/ b))) u).
  { intros u. apply (continuous_comp (fun v => pw v (/ b)) (fun t => exp (- t))).
    - apply pw_cont, Hib.
    - apply expm_cont. }
  assert (E : RInt (fun y => pw x b * exp (- pw (pw x b * y + 0) (/ b))) 0 1
              = RInt (fun u => exp (- pw u (/ b))) (pw x b * 0 + 0) (pw x b * 1 + 0)).
  { apply (RInt_comp_lin (fun u => exp (- pw u (/ b))) (pw x b) 0 0 1).
    apply ex_rint. intros; apply C. }
  replace (pw x b * 0 + 0) with 0 in E by ring. replace (pw x b * 1 + 0) with (pw x b) in E by ring.
  rewrite <- E.
  rewrite <- rint_scal.
  - apply rint_ext. intros v Hv. rewrite Rmin_left, Rmax_right in Hv by lra.
    rewrite Rplus_0_r, pw_mult, pw_inv by lra. reflexivity.
  - apply ex_rint. intros v _.
    apply (continuous_comp (fun v => pw v (/ b)) (fun t => exp (- (x * t)))).
    + apply pw_cont, Hib.
    + apply (ex_derive_continuous (fun t => exp (- (x * t)))). auto_derive. auto.
Qed.
Lemma bJ_derive x : 0 < x -> is_derive bJ x (Rpower x (a - 1) * exp (- x) * lgam b x).
Proof.
  intros Hx.
  apply (d_eq _ _ (/ b * RInt (fun t => Derive (fun u => bj u t) x) 0 1)).
  - unfold bJ. apply d_scal, (is_derive_RInt_param bj 0 1 x).
    + exists (mkposreal x Hx). intros y Hy t _. unfold ball in Hy. cbn in Hy.
      unfold AbsRing_ball, abs, minus, plus, opp in Hy. cbn in Hy. apply Rabs_def2 in Hy.
      eexists. apply bj_derive. lra.
    + intros t _.
      apply (continuity_2d_pt_ext_loc (fun u v => Rpower u (a + b - 1) * exp (- (u * (1 + pw v (/ b)))))).
      { exists (mkposreal x Hx). intros u v Hu _. cbn in Hu. apply Rabs_def2 in Hu. symmetry.
        apply is_derive_unique, bj_derive. lra. }
      apply continuity_2d_pt_mult.
      * apply (continuity_1d_2d_pt_comp (fun u => Rpower u (a + b - 1)) (fun u v => u)).
        -- eapply derive_cont_pt, is_derive_Rpower. auto.
        -- apply continuity_2d_pt_id1.
      * apply (continuity_1d_2d_pt_comp exp (fun u v => - (u * (1 + pw v (/ b))))).
        { apply derivable_continuous_pt, derivable_pt_exp. }
        apply continuity_2d_pt_opp, continuity_2d_pt_mult; [apply continuity_2d_pt_id1|].
        apply continuity_2d_pt_plus; [apply continuity_2d_pt_const|].
        apply (continuity_1d_2d_pt_comp (fun v => pw v (/ b)) (fun u v => v)).
        -- apply cont_pt, pw_cont, Hib.
        -- apply continuity_2d_pt_id2.
    + apply filter_forall. intros y. apply ex_rint. intros. apply bj_cont.
  - rewrite (rint_ext _ (fun v => (Rpower x (a + b - 1) * exp (- x)) * exp (- (x * pw v (/ b))))).
    2:{ intros v _. transitivity (Rpower x (a + b - 1) * exp (- (x * (1 + pw v (/ b))))).
        { now apply is_derive_unique, bj_derive. }
        rewrite Rmult_plus_distr_l, Rmult_1_r, Ropp_plus_distr, exp_plus. ring. }
    rewrite rint_scal.
    + rewrite lgam_scaled by auto. rewrite (pw_pos x) by auto.
      replace (a + b - 1) with ((a - 1) + b) by ring. rewrite Rpower_plus. ring.
    + apply ex_rint. intros v _.
      apply (continuous_comp (fun v => pw v (/ b)) (fun t => exp (- (x * t)))).
      * apply pw_cont, Hib.
      * apply (ex_derive_continuous (fun t => exp (- (x * t)))). auto_derive. auto.
Qed.
Definition bK : R := / b * RInt (fun v => Rpower (1 + pw v (/ b)) (- (a + b))) 0 1.
Lemma bJ_bounds x l h : (forall s, 0 <= s <= 1 -> l <= lgam (a + b) (x * (1 + s)) <= h) ->
  l * bK <= bJ x <= h * bK.
Proof.
  intros H. unfold bK, bJ. pose proof Hib.
  assert (Hs : forall v, 0 < v < 1 -> 0 <= pw v (/ b) <= 1).
  { intros v Hv. split; [apply pw_ge0|]. rewrite <- (pw_1 (/ b)). apply pw_le; auto. lra. }
  assert (Hex : ex_RInt (fun v => Rpower (1 + pw v (/ b)) (- (a + b))) 0 1)
    by (apply ex_rint; intros; apply wt_cont).
  assert (Hexj : ex_RInt (bj x) 0 1) by (apply ex_rint; intros; apply bj_cont).
  assert (Hexc : forall k, ex_RInt (fun v => k * Rpower (1 + pw v (/ b)) (- (a + b))) 0 1).
  { intros k. apply ex_rint; intros. apply (continuous_mult (fun _ => k)); [apply continuous_const|apply wt_cont]. }
  split.
  - assert (l * RInt (fun v => Rpower (1 + pw v (/ b)) (- (a + b))) 0 1 <= RInt (bj x) 0 1); [|nra].
    rewrite <- rint_scal by auto. apply RInt_le; auto; [lra|].
    intros v Hv. unfold bj. rewrite Rmult_comm. apply Rmult_le_compat_l; [left; apply Rpower_pos|].
    now apply H, Hs.
  - assert (RInt (bj x) 0 1 <= h * RInt (fun v => Rpower (1 + pw v (/ b)) (- (a + b))) 0 1); [|nra].
    rewrite <- rint_scal by auto. apply RInt_le; auto; [lra|].
    intros v Hv. unfold bj. rewrite (Rmult_comm h). apply Rmult_le_compat_l; [left; apply Rpower_pos|].
    now apply H, Hs.
Qed.
Lemma lgam_np c x : x <= 0 -> lgam c x = 0.
Proof. intros. unfold lgam, sing. rewrite pw_np, rint_point by auto. ring. Qed.
Lemma bK_val : bK = betaL b a (/ 2).
Proof.
  transitivity (sing b (fun s => Rpower (1 + s) (- (a + b))) 1).
  { unfold sing, bK. now rewrite pw_1. }
  symmetry. replace (/ 2) with (1 / (1 + 1)) by lra.
  apply (sing_unique b (fun s => Rpower (1 + s) (- (a + b))) 2 Hb ltac:(lra)) with
    (F := fun y => betaL b a (y / (1 + y))).
  - intros y Hy. apply (ex_derive_continuous (fun s => Rpower (1 + s) (- (a + b)))).
    eexists. apply (d_comp (fun u => Rpower u (- (a + b))) (fun s => 1 + s)).
    + apply is_derive_Rpower. lra.
    + auto_derive; auto.
  - lra.
  - unfold Rdiv. rewrite Rmult_0_l. apply betaL_0.
  - intros t Ht.
    assert (Hr : 0 < t / (1 + t) < 1).
    { split; [apply Rdiv_lt_0_compat; lra|]. apply (Rmult_lt_reg_r (1 + t)); [lra|].
      unfold Rdiv. rewrite Rmult_assoc, Rinv_l by lra. lra. }
    apply (d_eq _ _ (/ ((1 + t) * (1 + t))
            * (Rpower (t / (1 + t)) (b - 1) * Rpower (1 - t / (1 + t)) (a - 1)))).
    + apply (d_comp (betaL b a) (fun y => y / (1 + y))); [now apply betaL_derive|].
      auto_derive; [lra|]. field. lra.
    + replace (1 - t / (1 + t)) with (/ (1 + t)) by (field; lra).
      assert (E1 : forall k, Rpower (/ (1 + t)) k = Rpower (1 + t) (- k)).
      { intros k. unfold Rpower. f_equal. rewrite ln_Rinv by lra. ring. }
      unfold Rdiv. rewrite <- Rpower_mult_distr by (try lra; apply Rinv_0_lt_compat; lra).
      rewrite !E1.
      replace (/ ((1 + t) * (1 + t))) with (Rpower (1 + t) (- (1 + 1))).
      2:{ rewrite Rpower_Ropp, Rpower_plus, Rpower_1 by lra. reflexivity. }
      transitivity (Rpower t (b - 1) * (Rpower (1 + t) (- (1 + 1)) *
        (Rpower (1 + t) (- (b - 1)) * Rpower (1 + t) (- (a - 1))))); [ring|].
      f_equal. rewrite <- !Rpower_plus. f_equal. ring.
  - apply (continuity_pt_comp (fun y => y / (1 + y)) (betaL b a)).
    + apply (derive_cont_pt _ _ 1). auto_derive; [lra|]. field.
    + unfold Rdiv. rewrite Rmult_0_l. apply betaL_cont; lra.
Qed.
Lemma bJ_np x : x <= 0 -> bJ x = 0.
Proof.
  intros Hx. assert (0 * bK <= bJ x <= 0 * bK); [|lra]. apply bJ_bounds.
  intros s Hs. rewrite lgam_np by nra. lra.
Qed.
Lemma bK_pos : 0 < bK.
Proof. rewrite bK_val. apply betaL_pos; lra. Qed.
Lemma bJ_cont_0 : continuity_pt bJ 0.
Proof.
  intros e He. pose proof bK_pos as HK. rewrite (bJ_np 0) by lra.
  pose proof (lgam_cont (a + b) 0 ltac:(lra)) as C.
  destruct (C (e / bK)) as (d & Hd & H).
  { now apply Rdiv_lt_0_compat. }
  exists (d / 2). split; [lra|]. intros y [_ Hy]. cbn in Hy |- *. unfold R_dist in *.
  rewrite Rminus_0_r in *. destruct (Rle_lt_dec y 0) as [Hy0|Hy0].
  { rewrite bJ_np, Rabs_R0 by auto. auto. }
  assert (B : 0 * bK <= bJ y <= lgam (a + b) (2 * y) * bK).
  { apply bJ_bounds. intros s Hs. split; [apply lgam_ge0; nra|apply lgam_le; nra]. }
  rewrite Rabs_pos_eq by lra.
  specialize (H (2 * y)). cbn in H. unfold R_dist in H. rewrite lgam_0, !Rminus_0_r in H.
  apply (Rle_lt_trans _ _ _ (proj2 B)).
  assert (lgam (a + b) (2 * y) < e / bK).
  { apply Rabs_def2. rewrite Rabs_pos_eq in Hy by lra. apply H. split.
    - split; [exact I|lra].
    - rewrite Rabs_pos_eq by lra. lra. }
  apply (Rmult_lt_compat_r bK) in H0; auto.
  replace (e / bK * bK) with e in H0 by (field; lra). auto.
Qed.
End BG.
Lemma gam_prod a b x : 0 < a -> 0 < b -> 0 <= x -> lgam a x * lgam b x = bJ a b x + bJ b a x.
Proof.
  intros Ha Hb Hx.
  assert (E : lgam a x * lgam b x - lgam a 0 * lgam b 0 = bJ a b x + bJ b a x - (bJ a b 0 + bJ b a 0)).
  { apply (eq_of_derive (fun x => lgam a x * lgam b x) (fun x => bJ a b x + bJ b a x)
      (fun x => Rpower x (a - 1) * exp (- x) * lgam b x + lgam a x * (Rpower x (b - 1) * exp (- x)))); auto.
    - intros t Ht. apply (d_mult (lgam a) (lgam b)); apply lgam_derive; lra.
    - intros t Ht. apply (d_eq _ _ (Rpower t (a - 1) * exp (- t) * lgam b t
         + Rpower t (b - 1) * exp (- t) * lgam a t)); [|ring].
      apply d_plus; apply bJ_derive; lra.
    - intros t Ht. apply continuity_pt_mult; now apply lgam_cont.
    - intros t Ht. destruct (Req_dec t 0) as [->|].
      + apply continuity_pt_plus; now apply bJ_cont_0.
      + eapply derive_cont_pt. apply d_plus; apply bJ_derive; lra. }
  rewrite !lgam_0 in E. rewrite (bJ_np a b Ha Hb 0), (bJ_np b a Hb Ha 0) in E by lra. lra.
Qed.
Lemma Beta_Gam a b : 0 < a -> 0 < b -> Beta a b * Gam (a + b) = Gam a * Gam b.
Proof.
  intros Ha Hb.
  assert (B : forall x, 0 <= x ->
    lgam (a + b) x * Beta a b <= lgam a x * lgam b x <= Gam (a + b) * Beta a b).
  { intros x Hx. rewrite gam_prod by auto.
    assert (H1 : lgam (a + b) x * bK a b <= bJ a b x <= Gam (a + b) * bK a b).
    { apply bJ_bounds; auto. intros s Hs. split; [apply lgam_le; nra|apply lgam_le_Gam; nra]. }
    assert (H2 : lgam (b + a) x * bK b a <= bJ b a x <= Gam (b + a) * bK b a).
    { apply bJ_bounds; auto. intros s Hs. split; [apply lgam_le; nra|apply lgam_le_Gam; nra]. }
    rewrite (Rplus_comm b a) in H2. rewrite bK_val in H1, H2 by auto. unfold Beta. lra. }
  assert (L1 : is_lim (fun x => lgam (a + b) x * Beta a b) p_infty (Gam (a + b) * Beta a b)).
  { apply (is_lim_scal_r (lgam (a + b)) (Beta a b) p_infty (Gam (a + b))). apply lgam_lim. lra. }
  assert (L2 : is_lim (fun x => lgam a x * lgam b x) p_infty (Gam a * Gam b)).
  { apply (is_lim_mult (lgam a) (lgam b) p_infty (Gam a) (Gam b)); try (now apply lgam_lim). exact I. }
  assert (L3 : is_lim (fun _ => Gam (a + b) * Beta a b) p_infty (Gam (a + b) * Beta a b)) by apply is_lim_const.
  assert (Hev : Rbar_locally' p_infty (fun x => 0 <= x)).
  { exists 0. intros; lra. }
  assert (A1 : Rbar_le (Gam (a + b) * Beta a b) (Gam a * Gam b)).
  { refine (is_lim_le_loc _ _ _ _ _ _ L1 L2). revert Hev. apply filter_imp. intros x Hx. now apply B. }
  assert (A2 : Rbar_le (Gam a * Gam b) (Gam (a + b) * Beta a b)).
  { refine (is_lim_le_loc _ _ _ _ _ _ L2 L3). revert Hev. apply filter_imp. intros x Hx. now apply B. }
  cbn in A1, A2. lra.
Qed.
Lemma Beta_val a b : 0 < a -> 0 < b -> Beta a b = Gam a * Gam b / Gam (a + b).
Proof.
  intros Ha Hb. rewrite <- Beta_Gam by auto. field. assert (0 < Gam (a + b)) by (apply Gam_pos; lra). lra.
Qed.
