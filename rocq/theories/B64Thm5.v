(** The statements of C66. *)
From Coq Require Import ZArith QArith Reals Bool Lra Lia.
From Verif Require Import Num Sanity Prob B64 B64R B64Ord SpecB64 SpecB64D B64Cdf B64Quant B64Quant2 B64Cdf2 B64Thm Rand MT SpecRandB B64Rand B64Rand2 B64RandBad B64RandMT.
From Flocq Require Import Core IEEE754.BinarySingleNaN.
Local Open Scope R_scope.
Local Open Scope b64_scope.
Local Notation half := (blit (1#2)).
Lemma nonneg_le v : nonneg v -> bofZ 0 ≤ v. Proof. intros (N & L & _). apply (le_Zl 0); [sm|]. split; auto. Qed.
Lemma nz_le0 v : nz v -> v = B754_nan \/ bofZ 0 ≤ v. Proof. intros [->|H]; [now left|right; now apply nonneg_le]. Qed.
Lemma gt1_R (x : b64) : b64_fin x -> bofZ 1 ≺ x -> bfin x /\ (1 < B2R x)%R.
Proof.
  intros H L. apply fin_bfin in H. split; auto. destruct (ev_Z 1 ltac:(sm)) as [N1 E1]. apply ltb_ev in L; auto; [|now apply nn_fin]. rewrite E1, ev_fin in L; auto.
Qed.
Lemma le1_R (x : b64) : bfin x -> x ≤ bofZ 1 -> (B2R x <= 1)%R.
Proof. intros H L. apply (le_Zr 1) in L; [|sm]. rewrite ev_fin in L; auto. tauto. Qed.
Section T.
Variable F : TF.
Notation NB := (B64_Num F).
Variables (E : Type) (G : Rng b64 E).
Hypothesis OK : rng_b64 G.
Lemma rexp_T : log01_ok F -> forall rate, b64_pos rate -> forall e, bofZ 0 ≤ fst (rexp (N:=NB) G rate e).
Proof. intros H rate P e. apply (rexp_B F E G OK); auto. now apply pos_bpos. Qed.
Lemma rweibull_T : log1p_ok F -> pow_ok F -> forall shape scale, big_eps shape -> big_eps scale -> forall e, bofZ 0 ≤ fst (rweibull (N:=NB) G shape scale e).
Proof. intros. now apply (rweibull_B F E G OK). Qed.
Lemma rlnorm_T : exp_all_ok F -> forall mu sigma, b64_fin mu -> b64_pos sigma -> forall e, bofZ 0 ≤ fst (rlnorm (N:=NB) G mu sigma e).
Proof. intros H mu sigma A B e. apply (rlnorm_B F E G OK); auto; [now apply fin_bfin|now apply pos_bpos]. Qed.
Lemma rnorm_T : forall mu sigma, b64_fin mu -> b64_pos sigma -> forall e, number (fst (rnorm (N:=NB) G mu sigma e)).
Proof. intros mu sigma A B e. apply (rnorm_B F E G OK); auto; [now apply fin_bfin|now apply pos_bpos]. Qed.
Lemma rcauchy_T : tan_ok F -> b64_pos (t_PI F) -> forall mu sigma, b64_fin mu -> b64_pos sigma -> forall e, number (fst (rcauchy (N:=NB) G mu sigma e)).
Proof. intros H P mu sigma A B e. apply (rcauchy_B F E G OK); auto; [now apply fin_bfin|now apply pos_bpos]. Qed.
Lemma rlaplace_T : log01_ok F -> forall mu sigma, b64_fin mu -> b64_pos sigma -> forall e, number (fst (rlaplace (N:=NB) G mu sigma e)).
Proof. intros H mu sigma A B e. apply (rlaplace_B F E G OK); auto; [now apply fin_bfin|now apply pos_bpos]. Qed.
Lemma rlogis_T : log_ok F -> forall mu sigma, b64_fin mu -> b64_pos sigma -> forall e, number (fst (rlogis (N:=NB) G mu sigma e)).
Proof. intros H mu sigma A B e. apply (rlogis_B F E G OK); auto; [now apply fin_bfin|now apply pos_bpos]. Qed.
Lemma rgamma_T : log_cut F -> forall shape scale, b64_fin shape -> bofZ 1 ≺ shape -> big_eps scale -> forall fuel e, returns (fun v => bofZ 0 ≤ v) (rgamma (N:=NB) G fuel shape scale e).
Proof. intros H shape scale A B C fuel e v e' R. destruct (gt1_R _ A B). apply nonneg_le. unfold rgamma in R. eapply (rgamma_big F E G OK H); eauto. Qed.
Lemma rgamma_small_T : log_cut F -> pow_unit F -> forall shape scale, big_eps shape -> shape ≤ bofZ 1 -> big_eps scale -> forall depth fuel e v e',
  rgamma_rec (N:=NB) G depth fuel shape scale e = Some (v, e') ->
  (v = B754_nan \/ bofZ 0 ≤ v) /\
  exists depth' e1 X, rgamma_rec (N:=NB) G depth' fuel (badd (bofZ 1) shape) scale e1 = Some (X, e') /\ bofZ 0 ≤ X /\ (X ≺ plus_inf -> bofZ 0 ≤ v).
Proof.
  intros H HP shape scale A B C depth fuel e v e' R. destruct (big_eps_pos _ A) as (_ & [Fs _] & _).
  destruct (rgamma_small F E G OK H HP depth fuel shape scale e v e' A (le1_R _ Fs B) C R) as (d' & e1 & X & R' & NX & NV & K). split; [now apply nz_le0|].
  exists d', e1, X. split; auto. split; [now apply nonneg_le|]. intros L. apply nonneg_le, K. intros ->. discriminate L.
Qed.
Lemma rchisq_T : log_cut F -> forall dof, b64_fin (bdiv dof (bofZ 2)) -> bofZ 1 ≺ bdiv dof (bofZ 2) -> big_eps dof -> forall fuel e, returns (fun v => bofZ 0 ≤ v) (rchisq (N:=NB) G fuel dof e).
Proof.
  intros H dof A B C fuel e v e' R. destruct (gt1_R _ A B) as [Fd Ld]. apply nonneg_le. apply (rchisq_big F E G OK H fuel dof e v e'); auto.
  split; [|apply A]. destruct (ev_Z 0 ltac:(sm)) as [N0 E0]. apply ltb_ev; auto; [now apply nn_fin|]. rewrite E0, ev_fin; auto. lra.
Qed.
Lemma rchisq_small_T : log_cut F -> pow_unit F -> forall dof, big_eps dof -> big_eps (bdiv dof (bofZ 2)) -> forall fuel e, returns (fun v => v = B754_nan \/ bofZ 0 ≤ v) (rchisq (N:=NB) G fuel dof e).
Proof. intros H HP dof A B fuel e v e' R. apply nz_le0. eapply (rchisq_any F E G OK H HP); eauto. Qed.
Lemma rinvgamma_T : log_cut F -> forall shape rate, b64_fin shape -> bofZ 1 ≺ shape -> b64_pos rate -> big_eps (bdiv (bofZ 1) rate) -> forall fuel e, returns (fun v => bofZ 0 ≤ v) (rinvgamma (N:=NB) G fuel shape rate e).
Proof.
  intros H shape rate A B C D fuel e v e' R. destruct (gt1_R _ A B). apply (le_Zl 0); [sm|]. eapply (rinvgamma_big F E G OK H); eauto. now apply pos_bpos.
Qed.
Lemma rinvgamma_small_T : log_cut F -> pow_unit F -> forall shape rate, big_eps shape -> b64_pos rate -> big_eps (bdiv (bofZ 1) rate) -> forall fuel e, returns (fun v => v = B754_nan \/ bofZ 0 ≤ v) (rinvgamma (N:=NB) G fuel shape rate e).
Proof. intros H HP shape rate A B C fuel e v e' R. apply nz_le0. exact (rinvgamma_any F E G OK H HP fuel shape rate e v e' A (pos_bpos _ B) C R). Qed.
Lemma rbeta_T : log_cut F -> pow_unit F -> forall a b, big_eps a -> big_eps b -> forall fuel e, returns (fun v => v = B754_nan \/ (bofZ 0 ≤ v /\ v ≤ bofZ 1)) (rbeta (N:=NB) G fuel a b e).
Proof. intros H HP a b A B fuel e v e' R. exact (rbeta_any F E G OK H HP fuel a b e v e' A B R). Qed.
Lemma rf_T : log_cut F -> pow_unit F -> forall df1 df2, big_eps df1 -> big_eps (bdiv df1 (bofZ 2)) -> big_eps df2 -> big_eps (bdiv df2 (bofZ 2)) -> forall fuel e, returns (fun v => v = B754_nan \/ bofZ 0 ≤ v) (rf (N:=NB) G fuel df1 df2 e).
Proof. intros H HP a b A B C D fuel e v e' R. apply nz_le0. exact (rf_any F E G OK H HP fuel a b e v e' A B C D R). Qed.
Lemma rbern_T : forall prob, bofZ 0 ≤ prob -> prob ≤ bofZ 1 -> forall e, fst (rbern (N:=NB) G prob e) = bofZ 0 \/ fst (rbern (N:=NB) G prob e) = bofZ 1.
Proof. intros prob A B e. now apply (rbern_vals F E G). Qed.
Lemma rradem_T : forall prob, bofZ 0 ≤ prob -> prob ≤ bofZ 1 -> forall e, fst (rradem (N:=NB) G prob e) = bofZ (-1) \/ fst (rradem (N:=NB) G prob e) = bofZ 1.
Proof. intros prob A B e. now apply (rradem_vals F E G). Qed.
Lemma rbinom_T : forall n prob, (0 <= n <= 2 ^ 53)%Z -> bofZ 0 ≤ prob -> prob ≤ bofZ 1 -> forall e, exists j, (0 <= j <= n)%Z /\ fst (rbinom (N:=NB) G n prob e) = bofZ j.
Proof. intros n prob A B C e. now apply (rbinom_vals F E G). Qed.
End T.
Section R.
Variable F : TF.
Notation NB := (B64_Num F).
Lemma rinvgauss_R : exists (G : Rng b64 nat) mu lambda, rng_b64 G /\ big_eps mu /\ big_eps lambda /\ fst (rinvgauss (N:=NB) G mu lambda 0%nat) = bofZ (-2).
Proof. exists (tape halves (fun _ => ig_nu)), (bofZ 100000000), (bofZ 1). exact (rinvgauss_neg F). Qed.
Hypothesis V : few_values F.
Ltac zok := apply zeros_ok, halves_ok.
Lemma one_ok : rng_b64 (tape halves one_first). Proof. apply tape_ok; [apply halves_ok|]. intros [|n]; split; vm_compute; reflexivity. Qed.
Lemma gz_ok : rng_b64 (tape halves (fun _ => gz F)). Proof. apply tape_ok; [apply halves_ok|]. intros n; split; vm_compute; reflexivity. Qed.
Lemma rgamma_R : exists (G : Rng b64 nat) shape scale v e, rng_b64 G /\ big_eps shape /\ big_eps scale /\ rgamma (N:=NB) G 2 shape scale 0%nat = Some (v, e) /\ v = B754_nan.
Proof. exists (tape halves (fun _ => gz F)), tiny_shape, top_scale, B754_nan, 3%nat. split; [apply gz_ok|]. split; [apply tiny_big|]. split; [split; vm_compute; reflexivity|]. split; [now apply rgamma_nan|reflexivity]. Qed.
Lemma rbeta_R : exists (G : Rng b64 nat) a b v e, rng_b64 G /\ big_eps a /\ big_eps b /\ rbeta (N:=NB) G 2 a b 0%nat = Some (v, e) /\ v = B754_nan.
Proof. exists (tape halves zeros), tiny_shape, tiny_shape, B754_nan, 6%nat. split; [zok|]. split; [apply tiny_big|]. split; [apply tiny_big|]. split; [now apply rbeta_nan|reflexivity]. Qed.
Lemma rf_R : exists (G : Rng b64 nat) df1 df2 v e, rng_b64 G /\ big_eps df1 /\ big_eps df2 /\ rf (N:=NB) G 2 df1 df2 0%nat = Some (v, e) /\ v = B754_nan.
Proof. exists (tape halves zeros), tiny_dof, tiny_dof, B754_nan, 6%nat. split; [zok|]. split; [split; vm_compute; reflexivity|]. split; [split; vm_compute; reflexivity|]. split; [now apply rf_nan|reflexivity]. Qed.
Lemma rt_R : exists (G : Rng b64 nat) dof v e, rng_b64 G /\ big_eps dof /\ rt (N:=NB) G 2 dof 0%nat = Some (v, e) /\ v = B754_nan.
Proof. exists (tape halves zeros), tiny_dof, B754_nan, 4%nat. split; [zok|]. split; [split; vm_compute; reflexivity|]. split; [now apply rt_nan|reflexivity]. Qed.
Lemma rt_inf_R : exists (G : Rng b64 nat) dof v e, rng_b64 G /\ big_eps dof /\ rt (N:=NB) G 2 dof 0%nat = Some (v, e) /\ v = plus_inf.
Proof. exists (tape halves one_first), tiny_dof, plus_inf, 4%nat. split; [apply one_ok|]. split; [split; vm_compute; reflexivity|]. split; [now apply rt_inf|reflexivity]. Qed.
Lemma rinvgamma_R : exists (G : Rng b64 nat) shape rate v e, rng_b64 G /\ big_eps shape /\ big_eps rate /\ rinvgamma (N:=NB) G 2 shape rate 0%nat = Some (v, e) /\ v = plus_inf.
Proof. exists (tape halves zeros), tiny_shape, (bofZ 1), plus_inf, 3%nat. split; [zok|]. split; [apply tiny_big|]. split; [split; vm_compute; reflexivity|]. split; [now apply rinvgamma_inf|reflexivity]. Qed.
End R.
