(** The lower incomplete gamma function and the gamma function on the reals. *)
From Coq Require Import Reals Lra Lia Psatz.
From Coquelicot Require Import Coquelicot.
From Verif Require Import RealElem Analysis Erf PowInt.
Local Open Scope R_scope.

(** gamma(a,x) = integral of t^(a-1) e^(-t) over [0,x], written with u = t^a;
    [lgam_RInt_gen] relates it to the usual improper integral *)
Definition lgam (a x : R) : R := sing a (fun t => exp (- t)) x.

Lemma expm_cont y : continuous (fun t => exp (- t)) y.
Proof. apply (ex_derive_continuous (fun t => exp (- t))). auto_derive. auto. Qed.
Lemma lgam_RInt_gen a x : 0 < a -> 0 < x ->
  is_RInt_gen (fun t => Rpower t (a - 1) * exp (- t)) (at_right 0) (at_point x) (lgam a x).
Proof.
  intros Ha Hx. apply (sing_RInt_gen a (fun t => exp (- t)) (x + 1)); auto; try lra.
  intros; apply expm_cont.
Qed.
Lemma lgam_0 a : lgam a 0 = 0.
Proof. apply sing_0. Qed.
Lemma lgam_derive a x : 0 < a -> 0 < x -> is_derive (lgam a) x (Rpower x (a - 1) * exp (- x)).
Proof.
  intros Ha Hx. apply (sing_derive a (fun t => exp (- t)) (x + 1)); auto; try lra.
  intros; apply expm_cont.
Qed.
Lemma lgam_cont a x : 0 < a -> continuity_pt (lgam a) x.
Proof.
  intros Ha. apply (sing_cont a (fun t => exp (- t)) (Rabs x + 1)); auto.
  - pose proof (Rabs_pos x). lra.
  - intros; apply expm_cont.
  - pose proof (RRle_abs x). lra.
Qed.
Lemma lgam_d_pos a x : 0 < Rpower x (a - 1) * exp (- x).
Proof. apply Rmult_lt_0_compat; [apply Rpower_pos|apply exp_pos]. Qed.
Lemma lgam_slt a x y : 0 < a -> 0 <= x -> x < y -> lgam a x < lgam a y.
Proof.
  intros Ha Hx Hy. apply (smono_of_derive (lgam a) (fun x => Rpower x (a - 1) * exp (- x))); auto.
  - intros. apply lgam_derive; lra.
  - intros. apply lgam_d_pos.
  - intros. now apply lgam_cont.
Qed.
Lemma lgam_le a x y : 0 < a -> 0 <= x -> x <= y -> lgam a x <= lgam a y.
Proof. intros Ha Hx [H| ->]; [left; now apply lgam_slt|lra]. Qed.
Lemma lgam_pos a x : 0 < a -> 0 < x -> 0 < lgam a x.
Proof. intros. rewrite <- (lgam_0 a). apply lgam_slt; lra. Qed.
Lemma lgam_ge0 a x : 0 < a -> 0 <= x -> 0 <= lgam a x.
Proof. intros Ha [H|<-]; [left; now apply lgam_pos|rewrite lgam_0; lra]. Qed.
Lemma lgam_inj a x y : 0 < a -> 0 <= x -> 0 <= y -> lgam a x = lgam a y -> x = y.
Proof.
  intros Ha Hx Hy E. destruct (Rtotal_order x y) as [L|[->|L]]; auto;
    apply (lgam_slt a) in L; auto; lra.
Qed.

(** ** t^b e^(-t) is bounded, so the integral over the half-line is finite *)
Definition gam_C (b : R) : R := exp (b * (ln b - 1)).
Lemma ln_le_lin x : 0 < x -> ln x <= x - 1.
Proof.
  intros Hx. replace x with (1 + (x - 1)) at 1 by ring.
  destruct (Req_dec x 1) as [->|H].
  - replace (1 + (1 - 1)) with 1 by ring. rewrite ln_1. lra.
  - apply Rlt_le. replace (x - 1) with (ln (exp (x - 1))) at 2 by apply ln_exp.
    apply ln_increasing; [lra|]. apply exp_ineq1. lra.
Qed.
Lemma pow_exp_bound b t : 0 < b -> 0 < t -> Rpower t b * exp (- t) <= gam_C b.
Proof.
  intros Hb Ht. unfold Rpower, gam_C. rewrite <- exp_plus. apply exp_le_compat.
  assert (0 < t / b) by now apply Rdiv_lt_0_compat.
  pose proof (ln_le_lin (t / b) H) as L. unfold Rdiv in L. rewrite ln_mult, ln_Rinv in L;
    auto; [|now apply Rinv_0_lt_compat].
  apply (Rmult_le_compat_l b) in L; [|lra].
  replace (b * (t * / b - 1)) with (t - b) in L by (field; lra). lra.
Qed.
Lemma gam_C_pos b : 0 < gam_C b. Proof. apply exp_pos. Qed.
Lemma lgam_tail a x y : 0 < a -> 0 < x -> x <= y ->
  lgam a y - lgam a x <= gam_C (a + 1) / x.
Proof.
  intros Ha Hx Hy. pose proof (gam_C_pos (a + 1)) as HC.
  assert (H : forall t, 0 < t ->
    is_derive (fun t => - (gam_C (a + 1) / t) - lgam a t) t
      (gam_C (a + 1) / (t * t) - Rpower t (a - 1) * exp (- t))).
  { intros t Ht. apply d_minus; [|now apply lgam_derive]. auto_derive; [lra|]. field. lra. }
  assert (- (gam_C (a + 1) / x) - lgam a x <= - (gam_C (a + 1) / y) - lgam a y).
  { apply (mono_of_derive (fun t => - (gam_C (a + 1) / t) - lgam a t)
      (fun t => gam_C (a + 1) / (t * t) - Rpower t (a - 1) * exp (- t))); auto.
    - intros. apply H. lra.
    - intros t Ht. pose proof (pow_exp_bound (a + 1) t ltac:(lra) ltac:(lra)) as B.
      replace (a + 1) with (a - 1 + 1 + 1) in B at 1 by ring.
      rewrite !Rpower_plus, Rpower_1 in B by lra.
      apply (Rmult_le_reg_r (t * t)); [nra|].
      replace (0 * (t * t)) with 0 by ring.
      replace ((gam_C (a + 1) / (t * t) - Rpower t (a - 1) * exp (- t)) * (t * t))
        with (gam_C (a + 1) - Rpower t (a - 1) * t * t * exp (- t)) by (field; lra). lra.
    - intros. eapply derive_cont_pt, H. lra. }
  assert (0 < gam_C (a + 1) / y) by (apply Rdiv_lt_0_compat; lra). lra.
Qed.

(** ** the gamma function, as the supremum (= limit) of [lgam a] *)
Definition Gam (a : R) : R := real (Lub_Rbar (fun y => exists x, 0 <= x /\ y = lgam a x)).
Lemma Gam_lub a : 0 < a ->
  (forall x, 0 <= x -> lgam a x <= Gam a) /\ (forall y, y < Gam a -> exists x, 0 < x /\ y < lgam a x).
Proof.
  intros Ha. unfold Gam.
  pose proof (Lub_Rbar_correct (fun y => exists x, 0 <= x /\ y = lgam a x)) as [Hub Hl].
  destruct (Lub_Rbar _) as [g| |]; cbn [real].
  - split.
    + intros x Hx. apply (Hub (lgam a x)). eauto.
    + intros y Hy. destruct (Rbar_le_lt_dec g y) as [H|H]; [cbn in H; lra|].
      (* classical: otherwise y bounds the set *)
      destruct (Classical_Prop.classic (exists x, 0 < x /\ y < lgam a x)) as [|N]; auto.
      exfalso. assert (Rbar_le g y); [|cbn in *; lra]. apply Hl.
      intros z (x & Hx & ->). cbn. destruct (Rle_lt_dec (lgam a x) y); auto.
      exfalso. apply N. destruct Hx as [Hx|<-]; [eauto|]. exists 1. split; [lra|].
      apply (Rlt_trans _ _ _ r), lgam_slt; lra.
  - exfalso. assert (Rbar_le p_infty (lgam a 1 + gam_C (a + 1) / 1)); [|cbn in *; auto].
    apply Hl. intros z (x & Hx & ->). cbn.
    assert (0 < gam_C (a + 1) / 1) by (apply Rdiv_lt_0_compat; [apply gam_C_pos|lra]).
    destruct (Rle_lt_dec 1 x) as [H1|H1].
    + pose proof (lgam_tail a 1 x Ha ltac:(lra) H1). lra.
    + pose proof (lgam_slt a x 1 Ha Hx H1). lra.
  - exfalso. specialize (Hub (lgam a 0)). cbn in Hub. apply Hub. exists 0. split; auto. lra.
Qed.
Lemma lgam_le_Gam a x : 0 < a -> 0 <= x -> lgam a x <= Gam a.
Proof. intros Ha. now apply Gam_lub. Qed.
Lemma lgam_lt_Gam a x : 0 < a -> 0 <= x -> lgam a x < Gam a.
Proof.
  intros Ha Hx. apply (Rlt_le_trans _ (lgam a (x + 1))); [apply lgam_slt; lra|].
  apply lgam_le_Gam; lra.
Qed.
Lemma Gam_pos a : 0 < a -> 0 < Gam a.
Proof. intros. rewrite <- (lgam_0 a). apply lgam_lt_Gam; lra. Qed.
Lemma lgam_near a y : 0 < a -> y < Gam a -> exists x, 0 < x /\ y < lgam a x.
Proof. intros Ha. now apply Gam_lub. Qed.
Lemma lgam_lim a : 0 < a -> is_lim (lgam a) p_infty (Gam a).
Proof.
  intros Ha. apply is_lim_spec. intros e.
  destruct (lgam_near a (Gam a - e)) as (x & Hx & Hl); auto.
  { pose proof (cond_pos e). lra. }
  exists x. intros y Hy. pose proof (lgam_slt a x y Ha). pose proof (lgam_lt_Gam a y Ha).
  apply Rabs_def1; lra.
Qed.
(** two characterisations by values *)
Lemma Gam_eq a l : 0 < a -> (forall x, 0 <= x -> lgam a x <= l) ->
  (forall y, y < l -> exists x, 0 <= x /\ y < lgam a x) -> Gam a = l.
Proof.
  intros Ha Hu Hl. apply Rle_antisym.
  - destruct (Rle_lt_dec (Gam a) l) as [|L]; auto. exfalso.
    apply (lgam_near a l Ha) in L. destruct L as (x & Hx & L). pose proof (Hu x). lra.
  - destruct (Rle_lt_dec l (Gam a)) as [|L]; auto. exfalso.
    apply Hl in L. destruct L as (x & Hx & L). pose proof (lgam_le_Gam a x Ha Hx). lra.
Qed.
Lemma lgam_surj a y : 0 < a -> 0 < y < Gam a -> exists x, 0 < x /\ lgam a x = y.
Proof.
  intros Ha Hy. destruct (lgam_near a y Ha) as (b & Hb & Hl); [lra|].
  destruct (ivt (lgam a) 0 b y) as (x & Hx & E); auto.
  - intros. now apply lgam_cont.
  - rewrite lgam_0. lra.
  - exists x. split; auto. lra.
Qed.

(** ** recurrence *)
Lemma lgam_rec a x : 0 < a -> 0 <= x -> lgam (a + 1) x = a * lgam a x - pw x a * exp (- x).
Proof.
  intros Ha Hx. symmetry.
  apply (sing_unique (a + 1) (fun t => exp (- t)) (x + 1)
           ltac:(lra) ltac:(lra) ltac:(intros; apply expm_cont)
           (fun x => a * lgam a x - pw x a * exp (- x))); [lra| | |].
  - rewrite lgam_0, pw_0. ring.
  - intros t Ht.
    apply (d_eq _ _ (a * (Rpower t (a - 1) * exp (- t))
       - ((a * Rpower t (a - 1)) * exp (- t) + pw t a * (- exp (- t))))).
    + apply d_minus; [apply d_scal, lgam_derive; lra|].
      apply (d_mult (fun t => pw t a) (fun t => exp (- t))); [apply pw_derive; lra|].
      auto_derive; auto. lra.
    + rewrite pw_pos by lra. replace (a + 1 - 1) with a by ring. ring.
  - apply continuity_pt_minus.
    + apply continuity_pt_scal. now apply lgam_cont.
    + apply continuity_pt_mult; apply cont_pt; [now apply pw_cont|apply expm_cont].
Qed.
Lemma pw_exp_small a e : 0 < a -> 0 < e -> exists m, 0 < m /\ forall x, m <= x -> pw x a * exp (- x) < e.
Proof.
  intros Ha He. pose proof (gam_C_pos (a + 1)) as HC.
  exists (gam_C (a + 1) / e + 1).
  assert (0 < gam_C (a + 1) / e) by now apply Rdiv_lt_0_compat. split; [lra|].
  intros x Hx. rewrite pw_pos by lra.
  pose proof (pow_exp_bound (a + 1) x ltac:(lra) ltac:(lra)) as B.
  rewrite Rpower_plus, Rpower_1 in B by lra.
  apply (Rmult_lt_reg_r x); [lra|].
  apply (Rle_lt_trans _ (gam_C (a + 1))); [lra|].
  apply (Rlt_le_trans _ (e * (gam_C (a + 1) / e + 1))); [|nra].
  replace (e * (gam_C (a + 1) / e + 1)) with (gam_C (a + 1) + e) by (field; lra). lra.
Qed.
Lemma Gam_rec a : 0 < a -> Gam (a + 1) = a * Gam a.
Proof.
  intros Ha. apply Gam_eq; [lra| |].
  - intros x Hx. rewrite lgam_rec by auto. pose proof (lgam_le_Gam a x Ha Hx).
    pose proof (pw_ge0 x a). pose proof (exp_pos (- x)). nra.
  - intros y Hy.
    set (e := (a * Gam a - y) / 2). assert (He : 0 < e) by (unfold e; lra).
    destruct (pw_exp_small a e Ha He) as (m & Hm & Hs).
    destruct (lgam_near a (Gam a - e / a) Ha) as (x & Hx & Hl).
    { assert (0 < e / a) by now apply Rdiv_lt_0_compat. lra. }
    exists (Rmax m x). pose proof (Rmax_l m x). pose proof (Rmax_r m x). split; [lra|].
    rewrite lgam_rec by lra. specialize (Hs (Rmax m x) ltac:(lra)).
    pose proof (lgam_le a x (Rmax m x) Ha ltac:(lra) ltac:(lra)).
    assert (a * (Gam a - e / a) < a * lgam a (Rmax m x)) by (apply Rmult_lt_compat_l; lra).
    replace (a * (Gam a - e / a)) with (a * Gam a - e) in * by (field; lra). unfold e in *. lra.
Qed.
Lemma lgam_1 x : 0 <= x -> lgam 1 x = 1 - exp (- x).
Proof.
  intros Hx. symmetry.
  apply (sing_unique 1 (fun t => exp (- t)) (x + 1)
           ltac:(lra) ltac:(lra) ltac:(intros; apply expm_cont) (fun x => 1 - exp (- x))); [lra| | |].
  - rewrite Ropp_0, exp_0. ring.
  - intros t Ht. apply (d_eq _ _ (0 - - exp (- t))).
    + apply d_minus; [apply d_const|]. auto_derive; auto. lra.
    + replace (1 - 1) with 0 by ring. rewrite Rpower_O by lra. ring.
  - apply continuity_pt_minus; [apply continuity_pt_const; red; auto|apply cont_pt, expm_cont].
Qed.
Lemma Gam_1 : Gam 1 = 1.
Proof.
  apply Gam_eq; [lra| |].
  - intros x Hx. rewrite lgam_1 by auto. pose proof (exp_pos (- x)). lra.
  - intros y Hy. exists (Rmax 0 (- ln (1 - y) + 1)). pose proof (Rmax_l 0 (- ln (1 - y) + 1)).
    pose proof (Rmax_r 0 (- ln (1 - y) + 1)). split; auto. rewrite lgam_1 by auto.
    assert (exp (- Rmax 0 (- ln (1 - y) + 1)) < 1 - y); [|lra].
    rewrite <- (exp_ln (1 - y)) at 2 by lra. apply exp_increasing. lra.
Qed.
Lemma Gam_fact n : Gam (INR n + 1) = INR (fact n).
Proof.
  induction n as [|n IH]; [cbn [INR fact]; rewrite Rplus_0_l; apply Gam_1|].
  rewrite Gam_rec by (rewrite S_INR; pose proof (pos_INR n); lra).
  rewrite S_INR, IH. change (fact (S n)) with (S n * fact n)%nat. rewrite mult_INR, S_INR. ring.
Qed.
(** the regularised function at integer shape *)
Lemma lgam_int n x : 0 <= x ->
  lgam (INR n + 1) x = INR (fact n) * (1 - exp (- x) * sum_f_R0 (fun k => x ^ k / INR (fact k)) n).
Proof.
  intros Hx. induction n as [|n IH].
  - cbn [INR fact sum_f_R0 pow]. rewrite Rplus_0_l, lgam_1 by auto. field.
  - rewrite S_INR, lgam_rec, IH by (try apply pos_INR; auto; pose proof (pos_INR n); lra).
    rewrite tech5. change (fact (S n)) with (S n * fact n)%nat. rewrite mult_INR.
    assert (Hf := INR_fact_lt_0 n). pose proof (pos_INR n).
    replace (pw x (INR n + 1)) with (x ^ S n).
    + rewrite S_INR. cbn [pow]. field. lra.
    + destruct Hx as [Hx|<-]; [|rewrite pw_0; cbn; ring].
      rewrite pw_pos by auto. rewrite <- S_INR, Rpower_pow by auto. reflexivity.
Qed.
(** ** Gam(1/2) = sqrt PI *)
Lemma pw_half x : 0 <= x -> pw x (/ 2) = sqrt x.
Proof.
  intros [H|<-].
  - rewrite pw_pos by auto. now apply Rpower_sqrt.
  - rewrite pw_0. symmetry. apply sqrt_0.
Qed.
Lemma lgam_half x : 0 <= x -> lgam (/ 2) x = sqrt PI * erfR (sqrt x).
Proof.
  intros Hx. unfold lgam, sing, erfR, gauss_int. rewrite pw_half by auto. rewrite Rinv_involutive by lra.
  pose proof sqrt_PI_pos.
  replace (RInt (fun u => exp (- pw u 2)) 0 (sqrt x)) with (RInt (fun t => exp (- t ^ 2)) 0 (sqrt x)).
  - field. lra.
  - apply rint_ext. intros u Hu. do 2 f_equal. pose proof (sqrt_pos x).
    rewrite Rmin_left, Rmax_right in Hu by lra. rewrite pw_pos by lra.
    replace 2 with (INR 2) by (cbn; ring). rewrite Rpower_pow by lra. reflexivity.
Qed.
Lemma Gam_half : Gam (/ 2) = sqrt PI.
Proof.
  pose proof sqrt_PI_pos. apply Gam_eq; [lra| |].
  - intros x Hx. rewrite lgam_half by auto. pose proof (erfR_range (sqrt x)). nra.
  - intros y Hy. destruct (erfR_near_1 (y / sqrt PI)) as (x & Hx & Hl).
    { apply (Rmult_lt_reg_r (sqrt PI)); auto. unfold Rdiv. rewrite Rmult_assoc, Rinv_l by lra. lra. }
    exists (x * x). split; [nra|]. rewrite lgam_half by nra. rewrite sqrt_square by lra.
    apply (Rmult_lt_compat_l (sqrt PI)) in Hl; auto.
    replace (sqrt PI * (y / sqrt PI)) with y in Hl by (field; lra). lra.
Qed.

(** ** regularised: P(a,x) *)
Definition PG (a x : R) : R := lgam a x / Gam a.
Lemma PG_0 a : PG a 0 = 0. Proof. unfold PG. rewrite lgam_0. unfold Rdiv. ring. Qed.
Lemma PG_range a x : 0 < a -> 0 <= x -> 0 <= PG a x < 1.
Proof.
  intros Ha Hx. unfold PG. pose proof (Gam_pos a Ha). pose proof (lgam_lt_Gam a x Ha Hx).
  pose proof (lgam_ge0 a x Ha Hx). split.
  - apply Rmult_le_pos; auto. left. now apply Rinv_0_lt_compat.
  - apply (Rmult_lt_reg_r (Gam a)); auto. unfold Rdiv. rewrite Rmult_assoc, Rinv_l by lra. lra.
Qed.
Lemma PG_pos a x : 0 < a -> 0 < x -> 0 < PG a x.
Proof. intros. unfold PG. apply Rdiv_lt_0_compat; [now apply lgam_pos|now apply Gam_pos]. Qed.
Lemma PG_slt a x y : 0 < a -> 0 <= x -> x < y -> PG a x < PG a y.
Proof. intros. unfold PG. apply div_lt; [now apply Gam_pos|now apply lgam_slt]. Qed.
Lemma PG_le a x y : 0 < a -> 0 <= x -> x <= y -> PG a x <= PG a y.
Proof. intros Ha Hx [H| ->]; [left; now apply PG_slt|lra]. Qed.
Lemma PG_inj a x y : 0 < a -> 0 <= x -> 0 <= y -> PG a x = PG a y -> x = y.
Proof.
  intros Ha Hx Hy E. destruct (Rtotal_order x y) as [L|[->|L]]; auto;
    apply (PG_slt a) in L; auto; lra.
Qed.
Lemma PG_derive a x : 0 < a -> 0 < x ->
  is_derive (PG a) x (Rpower x (a - 1) * exp (- x) / Gam a).
Proof.
  intros Ha Hx. unfold PG. pose proof (Gam_pos a Ha).
  apply (is_derive_ext (fun x => / Gam a * lgam a x)). { intros. apply Rmult_comm. }
  apply (d_eq _ _ (/ Gam a * (Rpower x (a - 1) * exp (- x)))); [|unfold Rdiv; ring].
  apply d_scal. now apply lgam_derive.
Qed.
Lemma PG_cont a x : 0 < a -> continuity_pt (PG a) x.
Proof.
  intros Ha. unfold PG, Rdiv. apply continuity_pt_mult; [now apply lgam_cont|].
  apply continuity_pt_const. red; auto.
Qed.
Lemma PG_surj a p : 0 < a -> 0 < p < 1 -> exists x, 0 < x /\ PG a x = p.
Proof.
  intros Ha Hp. pose proof (Gam_pos a Ha).
  destruct (lgam_surj a (p * Gam a) Ha) as (x & Hx & E); [split; nra|].
  exists x. split; auto. unfold PG. rewrite E. field. lra.
Qed.
Lemma PG_1 x : 0 <= x -> PG 1 x = 1 - exp (- x).
Proof. intros. unfold PG. rewrite lgam_1, Gam_1 by auto. lra. Qed.
Lemma PG_int n x : 0 <= x ->
  PG (INR n + 1) x = 1 - exp (- x) * sum_f_R0 (fun k => x ^ k / INR (fact k)) n.
Proof.
  intros. unfold PG. rewrite lgam_int, Gam_fact by auto. pose proof (INR_fact_lt_0 n). field. lra.
Qed.
Lemma PG_half x : 0 <= x -> PG (/ 2) x = erfR (sqrt x).
Proof. intros. unfold PG. rewrite lgam_half, Gam_half by auto. pose proof sqrt_PI_pos. field. lra. Qed.
Lemma PG_lim a y : 0 < a -> y < 1 -> exists x, 0 < x /\ y < PG a x.
Proof.
  intros Ha Hy. destruct (Rlt_le_dec 0 y) as [H|H].
  - destruct (PG_surj a ((y + 1) / 2) Ha) as (x & Hx & E); [lra|]. exists x. split; auto. lra.
  - exists 1. split; [lra|]. pose proof (PG_pos a 1 Ha). lra.
Qed.
