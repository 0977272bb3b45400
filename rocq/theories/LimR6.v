(** Ratios of gamma functions; Student's t and F laws with infinite degrees of freedom. *)
From Coq Require Import Reals Lra Lia.
From Coquelicot Require Import Coquelicot.
From Verif Require Import Spec RealElem Analysis PowInt Erf GammaFn BetaFn NormR SpecSF FamR LawR LimR LimR2 LimR3 LimR4.
Local Open Scope R_scope.

Lemma lim_mul (F : (R -> Prop) -> Prop) {FF : Filter F} (f g : R -> R) l m :
  filterlim f F (locally l) -> filterlim g F (locally m) -> filterlim (fun s => f s * g s) F (locally (l * m)).
Proof.
  intros A B. apply (filterlim_comp_2 (F := F) (G := locally l) (H := locally m)); auto. apply (filterlim_mult (K := R_AbsRing) l m).
Qed.
Lemma lim_squeeze (F : (R -> Prop) -> Prop) {FF : Filter F} (f g h : R -> R) l :
  F (fun s => f s <= g s <= h s) -> filterlim f F (locally l) -> filterlim h F (locally l) -> filterlim g F (locally l).
Proof.
  intros H A B P [e HP]. unfold filtermap.
  assert (A' : F (fun s => Rabs (f s - l) < e)) by (apply (A (fun y => Rabs (y - l) < e)); exists e; intros y Hy; exact Hy).
  assert (B' : F (fun s => Rabs (h s - l) < e)) by (apply (B (fun y => Rabs (y - l) < e)); exists e; intros y Hy; exact Hy).
  generalize (filter_and _ _ H (filter_and _ _ A' B')). apply filter_imp. intros s (H1 & H2 & H3). apply HP.
  apply Rabs_def2 in H2. apply Rabs_def2 in H3. change (Rabs (g s - l) < e). apply Rabs_def1; lra.
Qed.

(** ** Wendel's inequality *)
Lemma bern_pow u s : 0 < u -> 0 <= s <= 1 -> Rpower u s <= 1 + s * (u - 1).
Proof.
  intros Hu Hs.
  assert (D : forall t, 0 < t -> is_derive (fun t => s * t - Rpower t s) t (s - s * Rpower t (s - 1))).
  { intros t Ht. apply d_minus; [auto_derive; auto; ring|]. apply (is_derive_ext_loc (fun t => pw t s)); [|now apply pw_derive].
    exists (mkposreal _ Ht). intros y Hy. unfold ball in Hy. cbn in Hy. unfold AbsRing_ball, abs, minus, plus, opp in Hy. cbn in Hy.
    apply Rabs_def2 in Hy. apply pw_pos. lra. }
  assert (P1 : forall k, Rpower 1 k = 1) by (intros; unfold Rpower; now rewrite ln_1, Rmult_0_r, exp_0).
  cut (s * 1 - Rpower 1 s <= s * u - Rpower u s); [rewrite P1; lra|].
  destruct (Rle_lt_dec u 1) as [L|L].
  - apply Ropp_le_cancel.
    apply (mono_of_derive (fun t => - (s * t - Rpower t s)) (fun t => - (s - s * Rpower t (s - 1)))); auto.
    + intros t Ht. apply (is_derive_opp (K := R_AbsRing) (V := R_NormedModule)). apply D. lra.
    + intros t Ht. assert (1 <= Rpower t (s - 1)); [|nra]. eapply Rle_trans; [|apply (pow_neg_le t 1); lra]. rewrite P1. lra.
    + intros t Ht. apply continuity_pt_opp. eapply derive_cont_pt, D. lra.
  - apply (mono_of_derive (fun t => s * t - Rpower t s) (fun t => s - s * Rpower t (s - 1))); [lra|..].
    + intros t Ht. apply D. lra.
    + intros t Ht. assert (Rpower t (s - 1) <= 1); [|nra]. eapply Rle_trans; [apply (pow_neg_le 1); lra|]. rewrite P1. lra.
    + intros t Ht. eapply derive_cont_pt, D. lra.
Qed.
Lemma lgam_wendel x s y : 0 < x -> 0 <= s <= 1 -> 0 < y ->
  lgam (x + s) y <= Rpower x s * ((1 - s) * lgam x y + s / x * lgam (x + 1) y).
Proof.
  intros Hx Hs Hy.
  cut (Rpower x s * ((1 - s) * lgam x 0 + s / x * lgam (x + 1) 0) - lgam (x + s) 0 <=
       Rpower x s * ((1 - s) * lgam x y + s / x * lgam (x + 1) y) - lgam (x + s) y); [rewrite !lgam_0; lra|].
  apply (mono_of_derive (fun y => Rpower x s * ((1 - s) * lgam x y + s / x * lgam (x + 1) y) - lgam (x + s) y)
    (fun y => Rpower x s * ((1 - s) * (Rpower y (x - 1) * exp (- y)) + s / x * (Rpower y (x + 1 - 1) * exp (- y))) - Rpower y (x + s - 1) * exp (- y))); [lra|..].
  - intros t Ht. apply d_minus; [|apply lgam_derive; lra]. apply d_scal. apply d_plus; apply d_scal; apply lgam_derive; lra.
  - intros t Ht. assert (0 < t / x) by (apply Rdiv_lt_0_compat; lra). pose proof (bern_pow (t / x) s H Hs) as B.
    rewrite Rpower_quot in B by lra. assert (Q : 0 < Rpower x s) by apply exp_pos.
    apply (Rmult_le_compat_r (Rpower x s)) in B; [|lra]. replace (Rpower t s / Rpower x s * Rpower x s) with (Rpower t s) in B by (field; lra).
    replace (x + 1 - 1) with (x - 1 + 1) by ring. replace (x + s - 1) with (x - 1 + s) by ring. rewrite !Rpower_plus, Rpower_1 by lra.
    assert (W : 0 < Rpower t (x - 1) * exp (- t)) by (apply Rmult_lt_0_compat; apply exp_pos).
    apply (Rmult_le_compat_r _ _ _ (Rlt_le _ _ W)) in B.
    replace (Rpower x s * ((1 - s) * (Rpower t (x - 1) * exp (- t)) + s / x * (Rpower t (x - 1) * t * exp (- t))))
      with ((1 + s * (t / x - 1)) * Rpower x s * (Rpower t (x - 1) * exp (- t))) by (field; lra). lra.
  - intros t Ht. apply continuity_pt_minus; [|apply lgam_cont; lra].
    apply continuity_pt_mult; [apply continuity_pt_const; intros ? ?; auto|].
    apply continuity_pt_plus; (apply continuity_pt_mult; [apply continuity_pt_const; intros ? ?; auto|apply lgam_cont; lra]).
Qed.
Lemma Gam_wendel x s : 0 < x -> 0 <= s <= 1 -> Gam (x + s) <= Rpower x s * Gam x.
Proof.
  intros Hx Hs. apply Rnot_lt_le. intros C. destruct (lgam_near (x + s) _ ltac:(lra) C) as (y & Hy & Q).
  pose proof (lgam_wendel x s y Hx Hs Hy) as W. pose proof (lgam_le_Gam x y Hx ltac:(lra)) as G1.
  pose proof (lgam_le_Gam (x + 1) y ltac:(lra) ltac:(lra)) as G2. rewrite Gam_rec in G2 by auto.
  assert (0 < Rpower x s) by apply exp_pos.
  assert ((1 - s) * lgam x y + s / x * lgam (x + 1) y <= Gam x).
  { assert (0 <= s / x) by (apply Rmult_le_pos; [lra|left; now apply Rinv_0_lt_compat]).
    apply (Rmult_le_compat_l (s / x)) in G2; auto. replace (s / x * (x * Gam x)) with (s * Gam x) in G2 by (field; lra).
    assert ((1 - s) * lgam x y <= (1 - s) * Gam x) by (apply Rmult_le_compat_l; lra). lra. }
  apply (Rmult_le_compat_l (Rpower x s)) in H0; lra.
Qed.
Definition gratio (a x : R) : R := Gam (x + a) / (Rpower x a * Gam x).
Lemma gratio_bounds s x : 0 < x -> 0 < s <= 1 -> Rpower (x / (x + s)) (1 - s) <= gratio s x <= 1.
Proof.
  intros Hx Hs. unfold gratio. assert (0 < Rpower x s) by apply exp_pos. pose proof (Gam_pos x Hx). pose proof (Gam_pos (x + s) ltac:(lra)).
  assert (P : 0 < Rpower x s * Gam x) by nra. split.
  - pose proof (Gam_wendel (x + s) (1 - s) ltac:(lra) ltac:(lra)) as W. replace (x + s + (1 - s)) with (x + 1) in W by ring.
    rewrite Gam_rec in W by auto. rewrite Rpower_quot by lra.
    assert (Q : 0 < Rpower (x + s) (1 - s)) by apply exp_pos. assert (E : Rpower x s * Rpower x (1 - s) = x).
    { rewrite <- Rpower_plus. replace (s + (1 - s)) with 1 by ring. now apply Rpower_1. }
    apply (Rmult_le_reg_r (Rpower (x + s) (1 - s) * (Rpower x s * Gam x))); [nra|].
    replace (Rpower x (1 - s) / Rpower (x + s) (1 - s) * (Rpower (x + s) (1 - s) * (Rpower x s * Gam x))) with (Rpower x s * Rpower x (1 - s) * Gam x) by (field; lra).
    replace (Gam (x + s) / (Rpower x s * Gam x) * (Rpower (x + s) (1 - s) * (Rpower x s * Gam x))) with (Rpower (x + s) (1 - s) * Gam (x + s)) by (field; lra).
    rewrite E. lra.
  - apply (Rmult_le_reg_r (Rpower x s * Gam x)); auto. replace (Gam (x + s) / (Rpower x s * Gam x) * (Rpower x s * Gam x)) with (Gam (x + s)) by (field; lra).
    rewrite Rmult_1_l. apply Gam_wendel; lra.
Qed.
Lemma quot_inf s : filterlim (fun x => x / (x + s)) (Rbar_locally p_infty) (locally 1).
Proof.
  apply lim_1m'; [typeclasses eauto|]. apply (lim_eq _ (fun x => s / (x + s))); [exists (- s); intros x Hx; field; lra|].
  apply (filterlim_comp _ _ _ (fun x => x + s) (fun d => s / d) _ (Rbar_locally p_infty)); [|apply div_inf].
  intros P [M HP]. exists (M - s). intros x Hx. apply HP. lra.
Qed.
Lemma gratio_small s : 0 < s <= 1 -> filterlim (gratio s) (Rbar_locally p_infty) (locally 1).
Proof.
  intros Hs. apply (lim_squeeze _ (fun x => Rpower (x / (x + s)) (1 - s)) _ (fun _ => 1)).
  - exists 0. intros x Hx. now apply gratio_bounds.
  - replace (locally 1) with (locally (Rpower 1 (1 - s))) by (f_equal; unfold Rpower; now rewrite ln_1, Rmult_0_r, exp_0).
    apply (lim_comp _ (fun x => x / (x + s)) (fun y => Rpower y (1 - s))); [apply quot_inf|].
    unfold Rpower. apply (derive_cont_pt _ _ (exp ((1 - s) * ln 1) * ((1 - s) * / 1))). auto_derive; [lra|]. ring.
  - apply filterlim_const.
Qed.
Lemma gratio_nat n s : 0 < s <= 1 -> filterlim (gratio (INR n + s)) (Rbar_locally p_infty) (locally 1).
Proof.
  intros Hs. induction n as [|n IH].
  - cbn [INR]. rewrite Rplus_0_l. now apply gratio_small.
  - pose proof (pos_INR n). rewrite S_INR. replace (INR n + 1 + s) with (INR n + s + 1) by ring. set (a := INR n + s) in *.
    apply (lim_eq _ (fun x => (1 - - (a / x)) * gratio a x)).
    { exists 0. intros x Hx. unfold gratio. replace (x + (a + 1)) with (x + a + 1) by ring. rewrite Gam_rec by (unfold a; lra).
      rewrite Rpower_plus, Rpower_1 by auto. assert (0 < Rpower x a) by apply exp_pos. pose proof (Gam_pos x Hx). field. lra. }
    replace (locally 1) with (locally (1 * 1)) by (f_equal; ring). apply lim_mul; [typeclasses eauto| |auto].
    apply (lim_1m _ _ 0); [ring|]. apply (filterlim_ext (fun x => - a / x)); [intros; unfold Rdiv; ring|]. apply div_inf.
Qed.
Lemma gratio_lim a : 0 < a -> filterlim (gratio a) (Rbar_locally p_infty) (locally 1).
Proof.
  intros Ha. destruct (archimed a) as (H1 & H2).
  assert (exists n s, 0 < s <= 1 /\ a = INR n + s) as (n & s & Hs & ->); [|now apply gratio_nat].
  destruct (Req_EM_T (IZR (up a)) (a + 1)) as [E|N].
  - (* [a] is an integer *)
    assert (Z1 : (1 <= up a - 1)%Z) by (assert (0 < up a - 1)%Z; [|lia]; apply lt_IZR; rewrite minus_IZR; lra).
    exists (Z.to_nat (up a - 2)), 1. split; [lra|]. rewrite INR_IZR_INZ, Z2Nat.id, minus_IZR by lia. lra.
  - assert (Z1 : (1 <= up a)%Z) by (assert (0 < up a)%Z; [|lia]; apply lt_IZR; lra).
    exists (Z.to_nat (up a - 1)), (a - (IZR (up a) - 1)). rewrite INR_IZR_INZ, Z2Nat.id, minus_IZR by lia. lra.
Qed.
