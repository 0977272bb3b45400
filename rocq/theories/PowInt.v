(** Integrals with an algebraic end-point singularity: the integral of
    [t^(a-1) phi t] over [0,x], defined through the substitution [u = t^a]. *)
From Coq Require Import Reals Lra Psatz.
From Coquelicot Require Import Coquelicot.
From Verif Require Import RealElem Analysis.
Local Open Scope R_scope.

(** [x^k] for [x > 0], and 0 otherwise *)
Definition pw (x k : R) : R := if Rlt_dec 0 x then Rpower x k else 0.
Lemma pw_pos x k : 0 < x -> pw x k = Rpower x k.
Proof. intros. unfold pw. destruct Rlt_dec; [auto|lra]. Qed.
Lemma pw_np x k : x <= 0 -> pw x k = 0.
Proof. intros. unfold pw. destruct Rlt_dec; [lra|auto]. Qed.
Lemma pw_0 k : pw 0 k = 0. Proof. apply pw_np. lra. Qed.
Lemma pw_ge0 x k : 0 <= pw x k.
Proof. unfold pw. destruct Rlt_dec; [left; apply Rpower_pos|lra]. Qed.
Lemma pw_gt0 x k : 0 < x -> 0 < pw x k.
Proof. intros. rewrite pw_pos by auto. apply Rpower_pos. Qed.
Lemma pw_1 k : pw 1 k = 1.
Proof. rewrite pw_pos by lra. unfold Rpower. rewrite ln_1, Rmult_0_r. apply exp_0. Qed.
Lemma Rpower_slt x y k : 0 < k -> 0 < x -> x < y -> Rpower x k < Rpower y k.
Proof.
  intros. unfold Rpower. apply exp_increasing, Rmult_lt_compat_l; auto. now apply ln_increasing.
Qed.
Lemma pw_slt x y k : 0 < k -> 0 <= x -> x < y -> pw x k < pw y k.
Proof.
  intros Hk [Hx|<-] Hy.
  - rewrite !pw_pos by lra. now apply Rpower_slt.
  - rewrite pw_0. now apply pw_gt0.
Qed.
Lemma pw_le x y k : 0 < k -> x <= y -> pw x k <= pw y k.
Proof.
  intros Hk [H| ->]; [|lra]. destruct (Rle_lt_dec 0 x); [left; now apply pw_slt|].
  rewrite pw_np by lra. apply pw_ge0.
Qed.
Lemma pw_pw x k l : pw (pw x k) l = pw x (k * l).
Proof.
  destruct (Rlt_le_dec 0 x) as [H|H].
  - rewrite (pw_pos x k), (pw_pos x (k * l)), pw_pos by (auto; apply Rpower_pos).
    now rewrite Rpower_mult.
  - rewrite !(pw_np x), pw_0 by auto. reflexivity.
Qed.
Lemma pw_inv x k : 0 < k -> 0 <= x -> pw (pw x k) (/ k) = x.
Proof.
  intros Hk Hx. rewrite pw_pw, Rinv_r by lra. destruct Hx as [Hx|<-]; [|apply pw_0].
  rewrite pw_pos by auto. now apply Rpower_1.
Qed.
Lemma pw_inv' x k : 0 < k -> 0 <= x -> pw (pw x (/ k)) k = x.
Proof.
  intros Hk Hx. rewrite pw_pw, Rinv_l by lra. destruct Hx as [Hx|<-]; [|apply pw_0].
  rewrite pw_pos by auto. now apply Rpower_1.
Qed.
Lemma pw_1r x : 0 <= x -> pw x 1 = x.
Proof. intros [H|<-]; [rewrite pw_pos by auto; now apply Rpower_1|apply pw_0]. Qed.
Lemma pw_mult x y k : 0 <= x -> 0 <= y -> pw (x * y) k = pw x k * pw y k.
Proof.
  intros [Hx|<-] [Hy|<-].
  - rewrite !pw_pos by (auto; nra). now rewrite Rpower_mult_distr.
  - rewrite Rmult_0_r, pw_0. ring.
  - rewrite Rmult_0_l, pw_0. ring.
  - rewrite Rmult_0_l, pw_0. ring.
Qed.
Lemma pw_derive x k : 0 < x -> is_derive (fun t => pw t k) x (k * Rpower x (k - 1)).
Proof.
  intros Hx. apply (is_derive_ext_loc (fun t => Rpower t k)).
  - exists (mkposreal x Hx). intros y Hy. unfold ball in Hy. cbn in Hy.
    unfold AbsRing_ball, abs, minus, plus, opp in Hy. cbn in Hy. apply Rabs_def2 in Hy.
    symmetry. apply pw_pos. lra.
  - now apply is_derive_Rpower.
Qed.
Lemma pw_cont x k : 0 < k -> continuous (fun t => pw t k) x.
Proof.
  intros Hk. destruct (Rtotal_order x 0) as [H|[->|H]].
  - apply (continuous_ext_loc _ (fun _ => 0)).
    + assert (Hx : 0 < - x) by lra. exists (mkposreal _ Hx). intros y Hy. unfold ball in Hy. cbn in Hy.
      unfold AbsRing_ball, abs, minus, plus, opp in Hy. cbn in Hy. apply Rabs_def2 in Hy.
      symmetry. apply pw_np. lra.
    + apply continuous_const.
  - apply cont_pt. intros e He. rewrite pw_0.
    exists (pw e (/ k)). split; [now apply pw_gt0|].
    intros y [_ Hy]. cbn in Hy |- *. unfold R_dist in *. rewrite Rminus_0_r in *.
    rewrite Rabs_pos_eq by apply pw_ge0.
    destruct (Rle_lt_dec y 0) as [Hy0|Hy0]; [rewrite pw_np by auto; auto|].
    rewrite Rabs_pos_eq in Hy by lra.
    apply (pw_slt y (pw e (/ k)) k) in Hy; [|auto|lra]. rewrite pw_inv' in Hy; auto. lra.
  - apply (ex_derive_continuous (fun t => pw t k)). eexists. now apply pw_derive.
Qed.

Section Sing.
Variables (a : R) (phi : R -> R) (c : R).
Hypothesis Ha : 0 < a.
Hypothesis Hc : 0 < c.
Hypothesis Hphi : forall y, 0 <= y < c -> continuous phi y.

Definition sing (x : R) : R := / a * RInt (fun u => phi (pw u (/ a))) 0 (pw x a).

Lemma sing_arg u : u < pw c a -> pw u (/ a) < c.
Proof.
  intros Hu. assert (Hia : 0 < / a) by now apply Rinv_0_lt_compat.
  destruct (Rle_lt_dec u 0); [rewrite pw_np by auto; auto|].
  apply (Rlt_le_trans _ (pw (pw c a) (/ a))).
  - apply pw_slt; auto. lra.
  - rewrite pw_inv; auto; lra.
Qed.
Lemma sing_cont_int u : u < pw c a -> continuous (fun u => phi (pw u (/ a))) u.
Proof.
  intros Hu. apply (continuous_comp (fun u => pw u (/ a)) phi).
  - apply pw_cont. now apply Rinv_0_lt_compat.
  - apply Hphi. split; [apply pw_ge0|now apply sing_arg].
Qed.
Lemma sing_ex_int v w : v < pw c a -> w < pw c a -> ex_RInt (fun u => phi (pw u (/ a))) v w.
Proof.
  intros Hv Hw. apply ex_rint. intros u [_ Hu]. apply sing_cont_int.
  apply (Rle_lt_trans _ _ _ Hu). now apply Rmax_lub_lt.
Qed.
Lemma sing_prim_derive v : v < pw c a ->
  is_derive (fun v => RInt (fun u => phi (pw u (/ a))) 0 v) v (phi (pw v (/ a))).
Proof.
  intros Hv. apply (is_derive_RInt (fun u => phi (pw u (/ a))) _ 0).
  - assert (He : 0 < pw c a - v) by lra. exists (mkposreal _ He). intros y Hy.
    unfold ball in Hy. cbn in Hy. unfold AbsRing_ball, abs, minus, plus, opp in Hy. cbn in Hy.
    apply Rabs_def2 in Hy. apply (@RInt_correct R_CompleteNormedModule), sing_ex_int; [|lra].
    now apply pw_gt0.
  - now apply sing_cont_int.
Qed.
Lemma sing_0 : sing 0 = 0.
Proof. unfold sing. rewrite pw_0, rint_point. ring. Qed.
Lemma sing_derive x : 0 < x < c -> is_derive sing x (Rpower x (a - 1) * phi x).
Proof.
  intros Hx. apply (d_eq _ _ (/ a * ((a * Rpower x (a - 1)) * phi (pw (pw x a) (/ a))))).
  - unfold sing. apply d_scal.
    apply (d_comp (fun v => RInt (fun u => phi (pw u (/ a))) 0 v) (fun x => pw x a)).
    + apply sing_prim_derive. apply pw_slt; lra.
    + apply pw_derive. lra.
  - rewrite pw_inv by lra. field. lra.
Qed.
Lemma sing_cont x : x < c -> continuity_pt sing x.
Proof.
  intros Hx. apply cont_pt. unfold sing. 
  apply (continuous_mult (fun _ => / a) (fun x => RInt (fun u => phi (pw u (/ a))) 0 (pw x a))).
  { apply continuous_const. }
  apply (continuous_comp (fun x => pw x a) (fun v => RInt (fun u => phi (pw u (/ a))) 0 v)).
  - now apply pw_cont.
  - apply (ex_derive_continuous (fun v => RInt (fun u => phi (pw u (/ a))) 0 v)).
    eexists. apply sing_prim_derive. destruct (Rle_lt_dec 0 x) as [H|H].
    + now apply pw_slt.
    + rewrite pw_np by lra. now apply pw_gt0.
Qed.
(** it is the (improper) integral of [t^(a-1) phi t] over (0,x] *)
Lemma sing_RInt_gen x : 0 < x < c ->
  is_RInt_gen (fun t => Rpower t (a - 1) * phi t) (at_right 0) (at_point x) (sing x).
Proof.
  intros Hx P [e He].
  assert (Hcx := sing_cont 0 Hc). apply cont_pt in Hcx.
  specialize (Hcx (fun y => ball (sing x) e (sing x - y))).
  assert (L : locally 0 (fun t => ball (sing x) e (sing x - sing t))).
  { apply Hcx. rewrite sing_0. exists e. intros y Hy. unfold ball in *. cbn in *.
    unfold AbsRing_ball, abs, minus, plus, opp in *. cbn in *.
    replace (sing x - y + - sing x) with (- (y + - 0)) by ring. now rewrite Rabs_Ropp. }
  apply (Filter_prod _ _ _ (fun t => 0 < t < x /\ ball (sing x) e (sing x - sing t)) (fun y => y = x)).
  - destruct L as [d Hd]. exists (mkposreal (Rmin d x) ltac:(apply Rmin_glb_lt; [apply cond_pos|lra])).
    intros t Ht Ht0. unfold ball in Ht. cbn in Ht. unfold AbsRing_ball, abs, minus, plus, opp in Ht.
    cbn in Ht. pose proof (Rmin_l d x). pose proof (Rmin_r d x). apply Rabs_def2 in Ht. split; [lra|].
    apply Hd. unfold ball. cbn. unfold AbsRing_ball, abs, minus, plus, opp. cbn. apply Rabs_def1; lra.
  - reflexivity.
  - intros t y [Ht Hb] ->. exists (sing x - sing t). split; [|now apply He].
    cbn. apply (@is_RInt_derive R_CompleteNormedModule sing).
    + intros z Hz. rewrite Rmin_left, Rmax_right in Hz by lra. apply sing_derive. lra.
    + intros z Hz. rewrite Rmin_left, Rmax_right in Hz by lra.
      apply (continuous_mult (fun t => Rpower t (a - 1)) phi).
      * apply (ex_derive_continuous (fun t => Rpower t (a - 1))). eexists. apply is_derive_Rpower. lra.
      * apply Hphi. lra.
Qed.
(** uniqueness: an antiderivative continuous at 0 *)
Lemma sing_unique (F : R -> R) x : 0 <= x < c -> F 0 = 0 ->
  (forall t, 0 < t <= x -> is_derive F t (Rpower t (a - 1) * phi t)) -> continuity_pt F 0 ->
  F x = sing x.
Proof.
  intros Hx F0 HF CF.
  assert (F x - F 0 = sing x - sing 0); [|rewrite F0, sing_0 in *; lra].
  apply (eq_of_derive F sing (fun t => Rpower t (a - 1) * phi t)); try lra.
  - intros t Ht. apply HF. lra.
  - intros t Ht. apply sing_derive. lra.
  - intros t Ht. destruct (Req_dec t 0) as [->|]; auto. eapply derive_cont_pt, HF. lra.
  - intros t Ht. apply sing_cont. lra.
Qed.
End Sing.
