(** The samplers evaluated in binary64: values that are never NaN and lie in the support. *)
From Coq Require Import ZArith QArith Reals Bool Lra Lia.
From Verif Require Import Num Sanity Prob Dens Quant Rand B64 B64R B64Ord SpecB64 SpecB64D SpecRandB B64Cdf B64Cdf2 B64Cdf3 B64Unif B64Quant B64Quant2 B64Mag B64Thm.
From Flocq Require Import Core IEEE754.BinarySingleNaN.
Local Open Scope R_scope.

(** *** numbers with a clear sign bit *)
Lemma nn_dec (x : b64) : x = B754_nan \/ nn x. Proof. destruct x; unfold nn; auto. Qed.
Lemma nonneg_cases x : nonneg x -> x = B754_zero false \/ x = pI \/ bpos x.
Proof.
  intros H. destruct (Req_dec (ev x) 0) as [E|E]; [left; now apply nonneg_0|]. destruct H as (N & L & _).
  destruct (nn_cases x N) as [Fx|[->| ->]]; [|auto|rewrite ev_m in L; pose proof maxR_pos; lra].
  right; right. split; auto. rewrite <- ev_fin by auto. lra.
Qed.
Lemma nonneg_pos x : bpos x -> nonneg x.
Proof. intros [Fx P]. split; [now apply nn_fin|]. split; [rewrite ev_fin by auto; lra|]. intros ->. cbn in P. lra. Qed.
Lemma nonneg_z : nonneg (B754_zero false). Proof. repeat split; cbn; try lra. discriminate. Qed.
Lemma nonneg_i : nonneg pI. Proof. repeat split; cbn; try (pose proof maxR_pos; lra). discriminate. Qed.
Lemma sign_nonneg x : nn x -> Bsign x = false -> nonneg x.
Proof.
  intros N S. destruct x as [[]|[]| |s m e B]; try discriminate; [apply nonneg_z|apply nonneg_i|]. cbn in S. subst s. repeat split; try discriminate. cbn. apply F2R_ge_0. cbn. lia.
Qed.
Lemma mul_pp x y : bpos x -> bpos y -> nonneg (bmul x y).
Proof. intros P Q. apply sign_nonneg; [apply bmul_r_nn; auto; apply nn_fin, P|now apply mul_sign]. Qed.
Lemma nonneg_mul_r x c : nonneg x -> bpos c -> nonneg (bmul x c).
Proof.
  intros H P. destruct (nonneg_cases x H) as [->|[->|Q]].
  - destruct (bpos_shape c P) as (m & e & B & ->). exact nonneg_z.
  - unfold pI. rewrite mulr_inf by auto. apply nonneg_i.
  - now apply mul_pp.
Qed.
(** NaN or nonneg *)
Definition nz (x : b64) : Prop := x = B754_nan \/ nonneg x.
Lemma nz_nan : nz B754_nan. Proof. now left. Qed.
Lemma bmul_nan_l x : bmul B754_nan x = B754_nan. Proof. reflexivity. Qed.
Lemma bmul_nan_r x : bmul x B754_nan = B754_nan. Proof. destruct x as [[]|[]| |[]]; reflexivity. Qed.
Lemma bdiv_nan_r x : bdiv x B754_nan = B754_nan. Proof. destruct x as [[]|[]| |[]]; reflexivity. Qed.
Lemma badd_nan_r x : badd x B754_nan = B754_nan. Proof. destruct x as [[]|[]| |[]]; reflexivity. Qed.
Lemma nz_mul x y : nz x -> nz y -> nz (bmul x y).
Proof.
  intros [->|H]; [left; reflexivity|]. intros [->|K]; [left; apply bmul_nan_r|].
  destruct (nonneg_cases x H) as [->|[->|P]], (nonneg_cases y K) as [->|[->|Q]].
  - right. exact nonneg_z.
  - now left.
  - right. destruct (bpos_shape y Q) as (m & e & B & ->). exact nonneg_z.
  - now left.
  - right. exact nonneg_i.
  - right. unfold pI. rewrite mulr_inf by auto. apply nonneg_i.
  - right. destruct (bpos_shape x P) as (m & e & B & ->). exact nonneg_z.
  - right. unfold pI. rewrite mull_inf by auto. apply nonneg_i.
  - right. now apply mul_pp.
Qed.
Lemma div_sign x y : bpos x -> bpos y -> Bsign (bdiv x y) = false.
Proof.
  intros [Fx Px] [Fy Py]. pose proof (bpos_shape x (conj Fx Px)) as (m & e & B & ->). pose proof (bpos_shape y (conj Fy Py)) as (m' & e' & B' & ->).
  pose proof (Bdiv_correct 53 1024 b64_prec_gt_0 b64_prec_lt_emax mode_NE (B754_finite false m e B) (B754_finite false m' e' B') ltac:(lra)) as C.
  destruct (Rlt_bool _ _) in C.
  - destruct C as (_ & Ff & S). apply S. revert Ff. set (w := Bdiv _ _ _). destruct w; cbn; auto; discriminate.
  - apply overflow_val in C. unfold bdiv. rewrite C. reflexivity.
Qed.
Lemma nz_div x y : nz x -> nz y -> nz (bdiv x y).
Proof.
  intros [->|H]; [left; reflexivity|]. intros [->|K]; [left; apply bdiv_nan_r|].
  destruct (nonneg_cases x H) as [->|[->|P]], (nonneg_cases y K) as [->|[->|Q]].
  - now left.
  - right. exact nonneg_z.
  - right. destruct (bpos_shape y Q) as (m & e & B & ->). exact nonneg_z.
  - right. exact nonneg_i.
  - now left.
  - right. unfold pI. rewrite divr_inf by auto. apply nonneg_i.
  - right. destruct (bpos_shape x P) as (m & e & B & ->). exact nonneg_i.
  - right. destruct (bpos_shape x P) as (m & e & B & ->). exact nonneg_z.
  - right. apply sign_nonneg; [|now apply div_sign]. apply bdiv_r_nn; auto. apply nn_fin, P.
Qed.
Lemma one_pos : bpos (bofZ 1). Proof. destruct (bofZ_R 1 ltac:(sm)) as [A B]. split; auto. rewrite A. lra. Qed.
Lemma nz_le x : nz x -> x = B754_nan \/ Bleb (bofZ 0) x = true.
Proof. intros [H|(N & L & _)]; auto. right. now apply (le_Zl 0 x ltac:(sm)). Qed.
(** the ratio of a beta draw *)
Lemma share x y : nz x -> nz y -> bdiv x (badd x y) = B754_nan \/ (Bleb (bofZ 0) (bdiv x (badd x y)) = true /\ Bleb (bdiv x (badd x y)) (bofZ 1) = true).
Proof.
  intros [->|H]; [left; reflexivity|]. intros [->|K]; [left; rewrite badd_nan_r; apply bdiv_nan_r|].
  assert (D : forall v, nn v -> 0 <= ev v <= 1 -> v = B754_nan \/ (Bleb (bofZ 0) v = true /\ Bleb v (bofZ 1) = true)).
  { intros v N B. right. split; [apply (le_Zl 0 v ltac:(sm))|apply (le_Zr 1 v ltac:(sm))]; split; auto; lra. }
  pose proof maxR_pos as M.
  destruct (nonneg_cases x H) as [->|[->|P]], (nonneg_cases y K) as [->|[->|Q]]; try (left; reflexivity).
  - apply D; [reflexivity|]. cbn. lra.
  - destruct (bpos_shape y Q) as (m & e & B & ->). apply D; [reflexivity|]. cbn. lra.
  - destruct (bpos_shape y Q) as (m & e & B & ->). left. reflexivity.
  - destruct (bpos_shape x P) as (m & e & B & ->). change (badd (B754_finite false m e B) (B754_zero false)) with (B754_finite false m e B). set (x := B754_finite false m e B) in *.
    destruct P as [Fx Px]. destruct (div_ff x x Fx Fx ltac:(lra)) as [N V]. apply D; auto. rewrite V. unfold Rdiv. rewrite Rinv_r by lra. rewrite (rc_Z 1 ltac:(sm)). lra.
  - destruct (bpos_shape x P) as (m & e & B & ->). apply D; [reflexivity|]. cbn. lra.
  - destruct P as [Fx Px], Q as [Fy Py]. destruct (add_ff x y Fx Fy) as [N V]. assert (L : B2R x <= ev (badd x y)) by (rewrite V, <- (ev_fin x Fx), <- (rc_ev x Fx) at 1; apply rc_mono; rewrite (ev_fin x Fx); lra).
    destruct (nn_cases _ N) as [Fs|[Es|Es]].
    + rewrite ev_fin in L by auto. destruct (div_ff x (badd x y) Fx Fs ltac:(lra)) as [N' V']. apply D; auto. rewrite V'. apply (rc_range 0 1); try sm. split.
      * apply Rmult_le_pos; [lra|]. left. apply Rinv_0_lt_compat. lra.
      * apply (Rmult_le_reg_r (B2R (badd x y))); [lra|]. unfold Rdiv. rewrite Rmult_assoc, Rinv_l by lra. lra.
    + rewrite Es. destruct (bpos_shape x (conj Fx Px)) as (m & e & B & ->). apply D; [reflexivity|]. cbn. lra.
    + rewrite Es, ev_m in L. lra.
Qed.

Section RandB.
Variable F : TF.
Variable E : Type.
Variable G : Rng b64 E.
Hypothesis OK : rng_b64 G.
Notation NB := (B64_Num F).

Lemma ltb_nn (x y : b64) : Bltb x y = true -> nn x /\ nn y.
Proof. intros H. split; [destruct x as [| | |]|destruct y as [| | |]]; try reflexivity; [discriminate H|destruct x as [[]|[]| |[]]; discriminate H]. Qed.
Lemma u01 e : in01o (fst (runif01 (N:=NB) G e)).
Proof.
  destruct OK as [U _]. specialize (U e). cbv zeta in U. unfold runif01, runif.
  replace (unif_sanity2 (N:=NB) (ofZ 0) (ofZ 1)) with true by (vm_compute; reflexivity). cbn [negb].
  change (@ofZ b64 NB) with bofZ in *. destruct U as [A B]. set (u := fst _) in *. clearbody u.
  destruct (ltb_nn _ _ A) as [_ N]. pose proof (ev_Z 0 ltac:(sm)) as [N0 E0]. pose proof (ev_Z 1 ltac:(sm)) as [N1 E1].
  apply ltb_ev in A; auto. apply ltb_ev in B; auto. split; auto. lra.
Qed.
Lemma gz_fin e : bfin (fst (g_norm G e)). Proof. apply fin_bfin, OK. Qed.

(** a sampler that inverts a quantile function *)
Lemma inv_nn Q : qinc Q -> forall e, nn (Q (fst (runif01 (N:=NB) G e))).
Proof. intros [A _] e. apply A, o_in, u01. Qed.
Lemma in01_0 : in01 (bofZ 0). Proof. pose proof (ev_Z 0 ltac:(sm)) as [N0 E0]. split; auto. lra. Qed.
Lemma inv_ge Q lo : qinc Q -> Q (bofZ 0) = lo -> forall e, ev lo <= ev (Q (fst (runif01 (N:=NB) G e))).
Proof.
  intros [A B] H e. pose proof (u01 e) as U. rewrite <- H. pose proof (ev_Z 0 ltac:(sm)) as [N0 E0]. apply B; [apply in01_0|now apply o_in|rewrite E0; apply Rlt_le, U].
Qed.
Lemma inv_ge0 Q : qinc Q -> Q (bofZ 0) = bofZ 0 -> forall e, Bleb (bofZ 0) (Q (fst (runif01 (N:=NB) G e))) = true.
Proof. intros H K e. apply leb_ev. split; [apply (ev_Z 0 ltac:(sm))|]. split; [now apply inv_nn|now apply inv_ge]. Qed.

Lemma rexp_B rate e : log01_ok F -> bpos rate -> Bleb (bofZ 0) (fst (rexp (N:=NB) G rate e)) = true.
Proof.
  intros H P. assert (S : exp_sanity1 (N:=NB) rate = true).
  { unfold exp_sanity1. rewrite (nan_nn F rate) by (apply nn_fin, P). change (ltb rate (ofZ 0)) with (Bltb rate (bofZ 0)). rewrite lt0_f by (try apply P; left; apply P). reflexivity. }
  unfold rexp. rewrite S. cbn [negb]. pose proof (inv_ge0 (fun p => qexp (N:=NB) p rate) (qexp_qinc F rate H P)) as K.
  rewrite (surjective_pairing (runif01 G e)). cbn [fst]. apply K. unfold qexp. rewrite S. reflexivity.
Qed.
Lemma rcauchy_B mu sigma e : tan_ok F -> b64_pos (t_PI F) -> bfin mu -> bpos sigma -> number (fst (rcauchy (N:=NB) G mu sigma e)).
Proof.
  intros H HP Fm P. pose proof (inv_nn _ (qcauchy_qinc F mu sigma H HP Fm P) e) as K. unfold rcauchy. change (cauchy_sanity2 (N:=NB)) with (norm_sanity2 (N:=NB)). rewrite ls_sanity by auto. cbn [negb].
  rewrite (surjective_pairing (runif01 G e)). cbn [fst]. now apply nn_neq.
Qed.
Lemma rlaplace_B mu sigma e : log01_ok F -> bfin mu -> bpos sigma -> number (fst (rlaplace (N:=NB) G mu sigma e)).
Proof.
  intros H Fm P. pose proof (inv_nn _ (qlaplace_qinc F mu sigma H Fm P) e) as K. unfold rlaplace. change (laplace_sanity2 (N:=NB)) with (norm_sanity2 (N:=NB)). rewrite ls_sanity by auto. cbn [negb].
  rewrite (surjective_pairing (runif01 G e)). cbn [fst]. now apply nn_neq.
Qed.
Lemma rlogis_B mu sigma e : log_ok F -> bfin mu -> bpos sigma -> number (fst (rlogis (N:=NB) G mu sigma e)).
Proof.
  intros H Fm P. pose proof (inv_nn _ (qlogis_qinc F mu sigma H Fm P) e) as K. unfold rlogis. change (logis_sanity2 (N:=NB)) with (norm_sanity2 (N:=NB)). rewrite ls_sanity by auto. cbn [negb].
  rewrite (surjective_pairing (runif01 G e)). cbn [fst]. now apply nn_neq.
Qed.
Lemma rweibull_B shape scale e : log1p_ok F -> pow_ok F -> big_eps shape -> big_eps scale -> Bleb (bofZ 0) (fst (rweibull (N:=NB) G shape scale e)) = true.
Proof.
  intros H Hp Bsh Bsc. assert (S : weibull_sanity2 (N:=NB) shape scale = true /\ Beqb shape (bofZ 0) = false).
  { destruct (big_eps_pos _ Bsh) as (Psh & Psh' & Esh), (big_eps_pos _ Bsc) as (Psc & Psc' & Esc). unfold weibull_sanity2, any_nan2. rewrite (nan_nn F shape), (nan_nn F scale) by (apply nn_fin; apply Psh' || apply Psc').
    cbn [orb]. rewrite (proj2 (eps_lt_f F shape (nn_fin _ (proj1 Psh'))) Esh), (proj2 (eps_lt_f F scale (nn_fin _ (proj1 Psc'))) Esc). split; [reflexivity|now apply eq0_f]. }
  destruct S as [S S0]. unfold rweibull. rewrite S. cbn [negb]. pose proof (inv_ge0 (fun p => qweibull (N:=NB) p shape scale) (qweibull_qinc F shape scale H Hp Bsh Bsc)) as K.
  rewrite (surjective_pairing (runif01 G e)). cbn [fst]. apply K. unfold qweibull. rewrite S. change (eqb shape (ofZ 0)) with (Beqb shape (bofZ 0)). rewrite S0. reflexivity.
Qed.
Lemma rnorm_B mu sigma e : bfin mu -> bpos sigma -> number (fst (rnorm (N:=NB) G mu sigma e)).
Proof.
  intros Fm P. unfold rnorm. rewrite ls_sanity by auto. cbn [negb]. rewrite (surjective_pairing (g_norm G e)). cbn [fst]. apply nn_neq.
  change (nn (badd mu (bmul sigma (fst (g_norm G e))))). apply badd_l_nn; auto. apply bmul_l_nn; auto. apply nn_fin, gz_fin.
Qed.
Lemma rlnorm_B mu sigma e : exp_all_ok F -> bfin mu -> bpos sigma -> Bleb (bofZ 0) (fst (rlnorm (N:=NB) G mu sigma e)) = true.
Proof.
  intros H Fm P. unfold rlnorm. change (lnorm_sanity2 (N:=NB)) with (norm_sanity2 (N:=NB)). rewrite ls_sanity by auto. cbn [negb].
  pose proof (rnorm_B mu sigma e Fm P) as K. rewrite (surjective_pairing (rnorm G mu sigma e)). cbn [fst]. set (v := fst _) in *. clearbody v.
  destruct H as [H _]. apply nn_neq in K. destruct (H v) as [A _]; auto; apply leb_ev; split; auto; try reflexivity; split; auto; try reflexivity; apply ev_bound.
Qed.
End RandB.
