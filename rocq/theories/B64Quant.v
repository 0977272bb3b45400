(** Quantile functions evaluated in binary64: no NaN and non-decreasing on [0,1]. *)
From Coq Require Import ZArith QArith Reals Bool Lra Lia.
From Verif Require Import Num Sanity Prob Dens Quant B64 B64R B64Ord SpecB64 B64Cdf B64Cdf2 B64Cdf3 B64Unif.
From Flocq Require Import Core IEEE754.BinarySingleNaN.
Local Open Scope R_scope.

Definition in01 (p : b64) : Prop := nn p /\ 0 <= ev p <= 1.
Definition in01o (p : b64) : Prop := nn p /\ 0 < ev p < 1.
Definition qinc (Q : b64 -> b64) : Prop :=
  (forall p, in01 p -> nn (Q p)) /\ (forall p q, in01 p -> in01 q -> ev p <= ev q -> ev (Q p) <= ev (Q q)).
Lemma qinc_spec Q : qinc Q -> b64_quantile Q.
Proof.
  intros [A B] p q H1 H2 H3. apply (le_Zl 0 p ltac:(sm)) in H1. apply (le_Zr 1 q ltac:(sm)) in H3. apply leb_ev in H2.
  destruct H1 as [Np L0], H2 as (_ & Nq & L1), H3 as [_ L2].
  assert (Ip : in01 p) by (split; auto; lra). assert (Iq : in01 q) by (split; auto; lra). apply leb_ev. auto.
Qed.
(** the values at 0 and 1 given apart *)
Lemma qinc_cap Q lo hi C : nn lo -> nn hi -> ev lo <= ev hi ->
  (forall p, in01 p -> ev p = 0 -> Q p = lo) -> (forall p, in01 p -> ev p = 1 -> Q p = hi) ->
  (forall p, in01o p -> Q p = C p) ->
  (forall p, in01o p -> nn (C p) /\ ev lo <= ev (C p) <= ev hi) ->
  (forall p q, in01o p -> in01o q -> ev p <= ev q -> ev (C p) <= ev (C q)) -> qinc Q.
Proof.
  intros Nl Nh Lh H0 H1 HC HV HM.
  assert (K : forall p, in01 p -> (ev p = 0 /\ Q p = lo) \/ (ev p = 1 /\ Q p = hi) \/ (in01o p /\ Q p = C p /\ nn (C p) /\ ev lo <= ev (C p) <= ev hi)).
  { intros p I. destruct I as [N B] eqn:EE. destruct (Req_dec (ev p) 0) as [E|E]; [left; auto|]. destruct (Req_dec (ev p) 1) as [E'|E']; [right; left; auto|].
    assert (O : in01o p) by (split; auto; lra). right; right. destruct (HV p O). auto. }
  split.
  - intros p I. destruct (K p I) as [[_ ->]|[[_ ->]|(_ & -> & N & _)]]; auto.
  - intros p q Ip Iq L. destruct (K p Ip) as [[E1 ->]|[[E1 ->]|(O1 & -> & N1 & B1)]], (K q Iq) as [[E2 ->]|[[E2 ->]|(O2 & -> & N2 & B2)]]; try lra;
      try (destruct O1; lra); try (destruct O2; lra). auto.
Qed.
Lemma bpow53 : 0 < bpow radix2 (-53) /\ rc (bpow radix2 (-53)) = bpow radix2 (-53).
Proof.
  split; [apply bpow_gt_0|]. pose proof (rnd_dyadic 1 (-53) ltac:(cbn; lia) ltac:(lia)) as E. rewrite Rmult_1_l in E.
  rewrite rc_in; rewrite E; auto. rewrite Rabs_pos_eq by (left; apply bpow_gt_0). apply bpow_lt. lia.
Qed.
Lemma in01o_fin p : in01o p -> bfin p /\ 0 < B2R p < 1.
Proof. intros [N B]. pose proof maxR_1. assert (Fp : bfin p) by (apply ev_lt_fin; auto; lra). split; auto. now rewrite <- ev_fin. Qed.
Lemma in01_fin p : in01 p -> bfin p /\ 0 <= B2R p <= 1.
Proof. intros [N B]. pose proof maxR_1. assert (Fp : bfin p) by (apply ev_lt_fin; auto; lra). split; auto. now rewrite <- ev_fin. Qed.
(** 1 - p is positive for p < 1 *)
Lemma one_minus_pos p : in01o p -> bfin (bsub (bofZ 1) p) /\ 0 < B2R (bsub (bofZ 1) p) <= 1 /\ ev (bsub (bofZ 1) p) = rc (1 - ev p).
Proof.
  intros O. destruct (in01o_fin p O) as [Fp Rp]. destruct O as [N B]. destruct (one_minus p N ltac:(lra)) as (U & V & W). pose proof maxR_1 as M.
  destruct (fin_of _ 0 1 U W ltac:(lra) ltac:(lra)) as [Fu Ru]. split; auto. split; auto. split; [|lra].
  rewrite <- ev_fin by auto. rewrite V. destruct bpow53 as [P1 P2]. apply Rlt_le_trans with (rc (bpow radix2 (-53))); [lra|]. apply rc_mono.
  pose proof (below_1 p Fp ltac:(lra)) as Q. rewrite ev_fin by auto. lra.
Qed.
Lemma one_minus_mono p q : in01 p -> in01 q -> ev p <= ev q -> ev (bsub (bofZ 1) q) <= ev (bsub (bofZ 1) p).
Proof. intros [Np Bp] [Nq Bq] L. destruct (one_minus p Np Bp) as (_ & -> & _), (one_minus q Nq Bq) as (_ & -> & _). apply rc_mono. lra. Qed.
Lemma o_in p : in01o p -> in01 p. Proof. intros [N B]. split; auto. lra. Qed.

Section Q.
Variable F : TF.
Notation NB := (B64_Num F).
Lemma pvc p : in01 p -> prob_val_check (N:=NB) p = true.
Proof.
  intros I. destruct (in01_fin p I) as [Fp Rp]. unfold prob_val_check. rewrite (nan_nn F p) by apply I.
  change (ltb p (ofZ 0)) with (Bltb p (bofZ 0)). change (ltb (ofZ 1) p) with (Bltb (bofZ 1) p). rewrite lt0_f by (auto; lra).
  destruct (bofZ_R 1 ltac:(sm)) as [A1 F1]. rewrite (proj2 (bltb_R_f (bofZ 1) p F1 Fp)) by lra. auto.
Qed.
Lemma eq01 p : in01 p -> (ev p = 0 -> Beqb p (bofZ 0) = true) /\ (ev p = 1 -> Beqb p (bofZ 0) = false /\ Beqb p (bofZ 1) = true).
Proof.
  intros [N B]. destruct z0 as [Z0 E0], z1 as [Z1 E1]. split; intros E; [apply eqb_ev; auto; lra|].
  split; [apply eqb_ev_f; auto; lra|apply eqb_ev; auto; lra].
Qed.
Lemma neq01 p : in01o p -> Beqb p (bofZ 0) = false /\ Beqb p (bofZ 1) = false.
Proof. intros [N B]. destruct z0 as [Z0 E0], z1 as [Z1 E1]. split; apply eqb_ev_f; auto; lra. Qed.
Ltac eqs := change (@eqb b64 NB) with (Beqb (prec:=53) (emax:=1024)); change (@ofZ b64 NB) with bofZ.

(** the shape of most of the functions *)
Lemma qinc_tri Q lo hi C : nn lo -> nn hi -> ev lo <= ev hi ->
  (forall p, in01 p -> Q p = if Beqb p (bofZ 0) then lo else if Beqb p (bofZ 1) then hi else C p) ->
  (forall p, in01o p -> nn (C p) /\ ev lo <= ev (C p) <= ev hi) ->
  (forall p q, in01o p -> in01o q -> ev p <= ev q -> ev (C p) <= ev (C q)) -> qinc Q.
Proof.
  intros Nl Nh L S V M. apply (qinc_cap Q lo hi C); auto.
  - intros p I E. rewrite S, (proj1 (eq01 p I) E) by auto. auto.
  - intros p I E. destruct (proj2 (eq01 p I) E) as [X Y]. rewrite S by auto. now rewrite X, Y.
  - intros p O. rewrite S by now apply o_in. now rewrite (proj1 (neq01 p O)), (proj2 (neq01 p O)).
Qed.
(** *** location and scale *)
Lemma ls_q Q mu s g : bfin mu -> bpos s ->
  (forall p, in01 p -> Q p = if Beqb p (bofZ 0) then mI else if Beqb p (bofZ 1) then pI else badd mu (bmul s (g p))) ->
  (forall p, in01o p -> nn (g p)) -> (forall p q, in01o p -> in01o q -> ev p <= ev q -> ev (g p) <= ev (g q)) -> qinc Q.
Proof.
  intros Fm Ps S Ng Mg. pose proof maxR_pos.
  apply (qinc_tri Q mI pI (fun p => badd mu (bmul s (g p)))); auto; try reflexivity; try (unfold mI, pI; rewrite ev_m, ev_p; lra).
  - intros p O. split; [apply badd_l_nn; auto; apply bmul_l_nn; auto|]. apply ev_bound.
  - intros p q Op Oq L. apply badd_l; auto; try (apply in_dom; apply bmul_l_nn; auto). apply bmul_l; auto; apply in_dom; auto.
Qed.

(** *** normal, log-normal *)
Lemma erf_inv_arg p : in01 p -> nn (bsub (bmul (bofZ 2) p) (bofZ 1)) /\ -1 <= ev (bsub (bmul (bofZ 2) p) (bofZ 1)) <= 1 /\
  ev (bsub (bmul (bofZ 2) p) (bofZ 1)) = rc (rc (2 * ev p) - 1).
Proof.
  intros I. destruct (in01_fin p I) as [Fp Rp]. destruct (bofZ_R 2 ltac:(sm)) as [A2 F2], (bofZ_R 1 ltac:(sm)) as [A1 F1]. pose proof maxR_1 as M. pose proof (maxR_big 4 ltac:(sm)) as M4. cbn in M4.
  destruct (mul_ff _ p F2 Fp) as [U V]. rewrite A2 in V.
  assert (W : 0 <= ev (bmul (bofZ 2) p) <= 2) by (rewrite V; apply (rc_range 0 2); try sm; lra).
  destruct (fin_of _ 0 2 U W ltac:(lra) ltac:(lra)) as [Fu Ru]. destruct (sub_ff _ _ Fu F1) as [X Y]. rewrite A1, <- (ev_fin _ Fu), V in Y.
  split; auto. rewrite Y, <- (ev_fin p Fp). split; auto. rewrite V, <- (ev_fin p Fp) in W. apply (rc_range (-1) 1); try sm. lra.
Qed.
Lemma qnorm_qinc mu sigma : erf_inv_ok F -> bfin mu -> bpos sigma -> bpos (bmul (t_SQRT_2 F) sigma) ->
  qinc (fun p => qnorm (N:=NB) p mu sigma).
Proof.
  intros H Fm Ps P2. destruct z1 as [Z1 E1]. destruct (incr_ev (bofZ (-1)) _ _ _ _ (proj1 (ev_Z (-1) ltac:(sm))) Z1 H) as [W1 W2].
  rewrite E1, (proj2 (ev_Z (-1) ltac:(sm))) in W1, W2.
  apply (ls_q _ mu (bmul (t_SQRT_2 F) sigma) (fun p => t_erf_inv F (bsub (bmul (bofZ 2) p) (bofZ 1)))); auto.
  - intros p I. unfold qnorm. rewrite ls_sanity, pvc by auto. cbn [negb]. eqs. rewrite eq0_f by auto. rewrite (posinf_fin F sigma), (posinf_fin F mu), (neginf_fin F mu) by (auto; apply Ps). reflexivity.
  - intros p O. destruct (erf_inv_arg p (o_in p O)) as (A & B & _). now apply W1.
  - intros p q Op Oq L. destruct (erf_inv_arg p (o_in p Op)) as (A & B & E), (erf_inv_arg q (o_in q Oq)) as (A' & B' & E').
    apply W2; auto; try lra. rewrite E, E'. apply rc_mono. apply Rplus_le_compat_r. apply rc_mono. lra.
Qed.
Lemma qlnorm_qinc mu sigma : exp_all_ok F -> erf_inv_ok F -> bfin mu -> bpos sigma -> bpos (bmul (t_SQRT_2 F) sigma) ->
  qinc (fun p => qlnorm (N:=NB) p mu sigma).
Proof.
  intros HX H Fm Ps P2. destruct (qnorm_qinc mu sigma H Fm Ps P2) as [A B].
  destruct (incr_ev minus_inf plus_inf _ _ _ eq_refl eq_refl HX) as [W1 W2].
  assert (S : forall p, in01 p -> qlnorm (N:=NB) p mu sigma = t_exp F (qnorm (N:=NB) p mu sigma)).
  { intros p I. unfold qlnorm. change (lnorm_sanity2 (N:=NB) mu sigma) with (norm_sanity2 (N:=NB) mu sigma). now rewrite ls_sanity, pvc by auto. }
  split.
  - intros p I. rewrite S by auto. apply W1; auto. apply ev_bound.
  - intros p q Ip Iq L. rewrite !S by auto. apply W2; auto; apply ev_bound.
Qed.

(** *** Cauchy, Student t with one or infinitely many degrees of freedom *)
Lemma minus_half p : in01 p -> bfin (bsub p (blit (1#2))) /\ - / 2 <= B2R (bsub p (blit (1#2))) <= / 2 /\ ev (bsub p (blit (1#2))) = rc (ev p - / 2).
Proof.
  intros I. destruct (in01_fin p I) as [Fp Rp]. destruct half_R as [Hf Hr]. pose proof maxR_1. destruct (sub_ff p _ Fp Hf) as [U V]. rewrite Hr in V.
  assert (W : - / 2 <= ev (bsub p (blit (1#2))) <= / 2).
  { rewrite V. pose proof rc_half as R1. pose proof (rc_opp (/ 2)) as R2. rewrite R1 in R2. pose proof (rc_mono (- / 2) (B2R p - / 2) ltac:(lra)). pose proof (rc_mono (B2R p - / 2) (/ 2) ltac:(lra)). lra. }
  destruct (fin_of _ _ _ U W ltac:(lra) ltac:(lra)) as [Fu Ru]. rewrite <- (ev_fin p Fp) in V. auto.
Qed.
Lemma tan_arg p : b64_pos (t_PI F) -> in01 p ->
  nn (bmul (t_PI F) (bsub p (blit (1#2)))) /\
  ev (Bopp (bmul (t_PI F) (blit (1#2)))) <= ev (bmul (t_PI F) (bsub p (blit (1#2)))) <= ev (bmul (t_PI F) (blit (1#2))).
Proof.
  intros Hp I. apply pos_bpos in Hp. destruct Hp as [FP PP]. destruct (minus_half p I) as (Fu & Ru & _). destruct half_R as [Hf Hr].
  destruct (mul_ff _ _ FP Fu) as [U V], (mul_ff _ _ FP Hf) as [U' V']. split; auto. rewrite (ev_opp _ U'), V, V', Hr, <- rc_opp. split; apply rc_mono; nra.
Qed.
Lemma tan_q : tan_ok F -> b64_pos (t_PI F) ->
  (forall p, in01 p -> nn (t_tan F (bmul (t_PI F) (bsub p (blit (1#2)))))) /\
  (forall p q, in01 p -> in01 q -> ev p <= ev q -> ev (t_tan F (bmul (t_PI F) (bsub p (blit (1#2))))) <= ev (t_tan F (bmul (t_PI F) (bsub q (blit (1#2)))))).
Proof.
  intros Ht Hp. pose proof (pos_bpos _ Hp) as [FP PP]. destruct half_R as [Hf Hr].
  destruct (mul_ff _ _ FP Hf) as [U' V']. destruct (incr_ev _ _ _ _ _ (proj1 (nn_opp _ U')) U' Ht) as [W1 W2].
  split.
  - intros p I. destruct (tan_arg p Hp I) as [A B]. now apply W1.
  - intros p q Ip Iq L. destruct (tan_arg p Hp Ip) as [A B], (tan_arg q Hp Iq) as [A' B']. apply W2; try tauto.
    destruct (minus_half p Ip) as (Fu & Ru & Eu), (minus_half q Iq) as (Fv & Rv & Ev).
    apply bmul_l; [split; auto|apply in_dom, nn_fin; auto|apply in_dom, nn_fin; auto|]. rewrite Eu, Ev. apply rc_mono. lra.
Qed.
Lemma qcauchy_qinc mu sigma : tan_ok F -> b64_pos (t_PI F) -> bfin mu -> bpos sigma -> qinc (fun p => qcauchy (N:=NB) p mu sigma).
Proof.
  intros Ht Hp Fm Ps. destruct (tan_q Ht Hp) as [A B].
  apply (ls_q _ mu sigma (fun p => t_tan F (bmul (t_PI F) (bsub p (blit (1#2)))))); auto.
  - intros p I. unfold qcauchy. change (cauchy_sanity2 (N:=NB) mu sigma) with (norm_sanity2 (N:=NB) mu sigma). rewrite ls_sanity, pvc by auto. cbn [negb]. eqs. rewrite eq0_f by auto.
    rewrite (posinf_fin F sigma), (posinf_fin F mu), (neginf_fin F mu) by (auto; apply Ps). reflexivity.
  - intros p O. apply A. now apply o_in.
  - intros p q Op Oq L. apply B; auto; now apply o_in.
Qed.
Lemma qt1_qinc : tan_ok F -> b64_pos (t_PI F) -> qinc (fun p => qt (N:=NB) p (bofZ 1)).
Proof.
  intros Ht Hp. destruct (tan_q Ht Hp) as [A B]. pose proof maxR_pos.
  apply (qinc_tri _ mI pI (fun p => t_tan F (bmul (t_PI F) (bsub p (blit (1#2)))))); try reflexivity; try (unfold mI, pI; rewrite ev_m, ev_p; lra).
  - intros p I. unfold qt. rewrite pvc by auto. change (t_sanity1 (N:=NB) (bofZ 1)) with true. cbn [negb]. eqs. change (Beqb (bofZ 1) (bofZ 1)) with true. reflexivity.
  - intros p O. split; [apply A; now apply o_in|apply ev_bound].
  - intros p q Op Oq L. apply B; auto; now apply o_in.
Qed.
Lemma qtinf_qinc : erf_inv_ok F -> bpos (bmul (t_SQRT_2 F) (bofZ 1)) -> qinc (fun p => qt (N:=NB) p pI).
Proof.
  intros H H2. destruct (bofZ_R 0 ltac:(sm)) as [A0 F0], (bofZ_R 1 ltac:(sm)) as [A1 F1].
  assert (P1 : bpos (bofZ 1)) by (split; [auto|lra]). destruct (qnorm_qinc (bofZ 0) (bofZ 1) H F0 P1 H2) as [A B]. pose proof maxR_pos.
  apply (qinc_tri _ mI pI (fun p => qnorm (N:=NB) p (bofZ 0) (bofZ 1))); try reflexivity; try (unfold mI, pI; rewrite ev_m, ev_p; lra).
  - intros p I. unfold qt. rewrite pvc by auto. reflexivity.
  - intros p O. split; [apply A; now apply o_in|apply ev_bound].
  - intros p q Op Oq L. apply B; auto; now apply o_in.
Qed.

(** *** logistic *)
Lemma odds p : in01o p -> nn (bdiv p (bsub (bofZ 1) p)) /\ 0 <= ev (bdiv p (bsub (bofZ 1) p)) /\ ev (bdiv p (bsub (bofZ 1) p)) = rc (B2R p / B2R (bsub (bofZ 1) p)).
Proof.
  intros O. destruct (in01o_fin p O) as [Fp Rp]. destruct (one_minus_pos p O) as (Fu & Ru & _).
  destruct (div_ff p _ Fp Fu ltac:(lra)) as [U V]. split; auto. split; auto. rewrite V, <- rc_0. apply rc_mono.
  apply Rmult_le_pos; [lra|]. left. apply Rinv_0_lt_compat. lra.
Qed.
Lemma qlogis_qinc mu sigma : log_ok F -> bfin mu -> bpos sigma -> qinc (fun p => qlogis (N:=NB) p mu sigma).
Proof.
  intros H Fm Ps. destruct z0 as [Z0 E0]. destruct (incr_ev _ plus_inf _ _ _ Z0 eq_refl H) as [W1 W2]. rewrite E0 in W1, W2.
  apply (ls_q _ mu sigma (fun p => t_log F (bdiv p (bsub (bofZ 1) p)))); auto.
  - intros p I. unfold qlogis. change (logis_sanity2 (N:=NB) mu sigma) with (norm_sanity2 (N:=NB) mu sigma). rewrite ls_sanity, pvc by auto. cbn [negb]. eqs. rewrite eq0_f by auto.
    rewrite (posinf_fin F sigma), (posinf_fin F mu), (neginf_fin F mu) by (auto; apply Ps). reflexivity.
  - intros p O. destruct (odds p O) as (A & B & _). apply W1; auto. split; auto. apply ev_bound.
  - intros p q Op Oq L. destruct (odds p Op) as (A & B & E), (odds q Oq) as (A' & B' & E'). apply W2; auto; [|apply ev_bound].
    rewrite E, E'. apply rc_mono. destruct (one_minus_pos p Op) as (Fu & Ru & _), (one_minus_pos q Oq) as (Fv & Rv & _).
    destruct (in01o_fin p Op) as [Fp Rp], (in01o_fin q Oq) as [Fq Rq]. pose proof (one_minus_mono p q (o_in p Op) (o_in q Oq) L) as Q. rewrite !ev_fin in Q, L by auto.
    apply Rmult_le_compat; try lra; [left; apply Rinv_0_lt_compat; lra|apply Rinv_le_contravar; lra].
Qed.

(** *** exponential, Weibull *)
Lemma log_neg u : log01_ok F -> nn u -> 0 <= ev u <= 1 -> nn (t_log F u) /\ ev (t_log F u) <= 0.
Proof.
  intros [H H1] N B. destruct z0 as [Z0 E0], z1 as [Z1 E1]. destruct (incr_ev _ plus_inf _ _ _ Z0 eq_refl H) as [W1 W2]. rewrite E0 in W1, W2.
  assert (C : forall v, nn v -> ev v <= ev plus_inf) by (intros; apply ev_bound).
  assert (N1 : nn (t_log F u)) by (apply W1; auto; split; [lra|auto]). split; auto.
  assert (L1 : nn (t_log F (bofZ 1))) by (apply W1; auto; split; [lra|auto]).
  apply (eqb_ev _ _ L1 Z0) in H1. rewrite E0 in H1. rewrite <- H1. apply W2; auto; lra.
Qed.
Lemma qexp_qinc rate : log01_ok F -> bpos rate -> qinc (fun p => qexp (N:=NB) p rate).
Proof.
  intros H Pr. pose proof maxR_pos. destruct z0 as [Z0 E0]. destruct (incr_ev _ plus_inf _ _ _ Z0 eq_refl (proj1 H)) as [_ W2]. rewrite E0 in W2.
  assert (V : forall p, in01o p -> exists v, v = Bopp (t_log F (bsub (bofZ 1) p)) /\ nn v /\ ev v = - ev (t_log F (bsub (bofZ 1) p)) /\ 0 <= ev v).
  { intros p [N B]. destruct (one_minus p N ltac:(lra)) as (U & _ & W). destruct (log_neg _ H U W) as [X Y]. destruct (nn_opp _ X) as [X' Y']. eexists. split; [reflexivity|]. repeat split; auto. lra. }
  assert (D0 : ev (bdiv (bofZ 0) rate) = 0).
  { destruct (bofZ_R 0 ltac:(sm)) as [Z0R Z0F]. destruct Pr as [Fr Pr]. rewrite (proj2 (div_ff _ _ Z0F Fr ltac:(lra))), Z0R. unfold Rdiv. now rewrite Rmult_0_l, rc_0. }
  apply (qinc_tri _ (bofZ 0) pI (fun p => bdiv (Bopp (t_log F (bsub (bofZ 1) p))) rate)); auto; try reflexivity; try (unfold pI; rewrite ?E0, ?ev_p; lra).
  - intros p I. unfold qexp, exp_sanity1. rewrite pvc, (nan_nn F rate) by (auto; apply nn_fin, Pr). change (ltb rate (ofZ 0)) with (Bltb rate (bofZ 0)). rewrite lt0_f by (try apply Pr; left; apply Pr). reflexivity.
  - intros p O. destruct (V p O) as (v & <- & N & _ & L). split; [now apply bdiv_r_nn|]. split; [|apply ev_bound]. rewrite E0, <- D0. apply bdiv_r; auto; try (now apply in_dom); rewrite E0; lra.
  - intros p q Op Oq L. destruct (V p Op) as (v & Ev & N & E & _), (V q Oq) as (w & Ew & N' & E' & _). rewrite <- Ev, <- Ew. apply bdiv_r; auto; try now apply in_dom.
    rewrite E, E'. apply Ropp_le_contravar. destruct Op as [Np Bp], Oq as [Nq Bq].
    destruct (one_minus p Np ltac:(lra)) as (U1 & _ & V1), (one_minus q Nq ltac:(lra)) as (U2 & _ & V2).
    apply W2; auto; [lra| |apply ev_bound]. apply one_minus_mono; auto; split; auto; lra.
Qed.
Lemma recip_pos shape : big_eps shape -> b64_pos (bdiv (bofZ 1) shape).
Proof.
  intros H. destruct (big_eps_pos _ H) as (_ & [Fs Ps] & Es). destruct (bofZ_R 1 ltac:(sm)) as [A1 F1]. destruct z0 as [Z0 E0]. pose proof maxR_pos.
  destruct (div_ff (bofZ 1) shape F1 Fs ltac:(lra)) as [U V]. rewrite A1 in V.
  assert (M1 : bpow radix2 (-1024) <= 1 / B2R shape).
  { unfold Rdiv. rewrite Rmult_1_l. change (-1024)%Z with (Z.opp 1024). rewrite bpow_opp. apply Rinv_le_contravar; auto. pose proof (fin_lt _ Fs) as Q. rewrite ev_fin in Q by auto. unfold maxR in Q. lra. }
  assert (M2 : 1 / B2R shape <= bpow radix2 52).
  { unfold Rdiv. rewrite Rmult_1_l. change 52%Z with (Z.opp (-52)). rewrite bpow_opp. apply Rinv_le_contravar; [apply bpow_gt_0|]. rewrite <- (ev_fin shape Fs).
    apply Rle_trans with (2 := Es). right. rewrite ev_fin by apply eps_pos. vm_compute. lra. }
  apply rc_mono in M1, M2.
  pose proof (rnd_dyadic 1 (-1024) ltac:(cbn; lia) ltac:(lia)) as R1. pose proof (rnd_dyadic 1 52 ltac:(cbn; lia) ltac:(lia)) as R2. rewrite Rmult_1_l in R1, R2.
  rewrite rc_in in M1 by (rewrite R1, Rabs_pos_eq by apply bpow_ge_0; apply bpow_lt; lia). rewrite (rc_in (bpow radix2 52)) in M2 by (rewrite R2, Rabs_pos_eq by apply bpow_ge_0; apply bpow_lt; lia).
  rewrite R1 in M1. rewrite R2 in M2. pose proof (bpow_gt_0 radix2 (-1024)). assert (bpow radix2 52 < maxR) by (apply bpow_lt; lia).
  split; apply ltb_ev; auto; try reflexivity; rewrite V; unfold plus_inf; rewrite ?E0, ?ev_p; lra.
Qed.
Lemma qweibull_qinc shape scale : log1p_ok F -> pow_ok F -> big_eps shape -> big_eps scale -> qinc (fun p => qweibull (N:=NB) p shape scale).
Proof.
  intros H Hp Bsh Bsc. destruct (big_eps_pos _ Bsh) as (Psh & Psh' & Esh), (big_eps_pos _ Bsc) as (Psc & Psc' & Esc).
  pose proof maxR_pos as M. destruct z0 as [Z0 E0]. destruct (incr_ev _ plus_inf _ _ _ Z0 eq_refl (Hp _ (recip_pos shape Bsh))) as [W1 W2]. rewrite E0 in W1, W2.
  destruct (incr_ev _ _ _ _ _ (proj1 (ev_Z (-1) ltac:(sm))) Z0 H) as [L1 L2]. rewrite E0, (proj2 (ev_Z (-1) ltac:(sm))) in L1, L2.
  assert (V : forall p, in01 p -> nn (Bopp (t_log1p F (Bopp p))) /\ ev (Bopp (t_log1p F (Bopp p))) = - ev (t_log1p F (Bopp p)) /\ 0 <= ev (Bopp (t_log1p F (Bopp p))) /\ nn (Bopp p) /\ ev (Bopp p) = - ev p).
  { intros p [N B]. destruct (nn_opp p N) as [N' B']. destruct (L1 (Bopp p) N') as [X Y]; [lra|]. destruct (nn_opp _ X) as [X' Y']. repeat split; auto. lra. }
  assert (D0 : ev (bmul scale (bofZ 0)) = 0).
  { destruct (bofZ_R 0 ltac:(sm)) as [Z0R Z0F]. rewrite (proj2 (mul_ff _ _ (proj1 Psc') Z0F)), Z0R. now rewrite Rmult_0_r, rc_0. }
  apply (qinc_tri _ (bofZ 0) pI (fun p => bmul scale (t_pow F (Bopp (t_log1p F (Bopp p))) (bdiv (bofZ 1) shape)))); auto; try reflexivity; try (unfold pI; rewrite ?E0, ?ev_p; lra).
  - intros p I. unfold qweibull, weibull_sanity2, any_nan2. rewrite pvc, (nan_nn F shape), (nan_nn F scale) by (auto; apply nn_fin; apply Psh' || apply Psc').
    cbn [orb]. rewrite (proj2 (eps_lt_f F shape (nn_fin _ (proj1 Psh'))) Esh), (proj2 (eps_lt_f F scale (nn_fin _ (proj1 Psc'))) Esc). cbn [negb]. eqs. rewrite eq0_f by auto.
    rewrite (posinf_fin F shape) by apply Psh'. reflexivity.
  - intros p O. destruct (V p (o_in p O)) as (A & _ & B & _). destruct (W1 _ A) as [X Y]; [split; auto; apply ev_bound|].
    split; [now apply bmul_l_nn|]. split; [|apply ev_bound]. rewrite E0, <- D0. apply bmul_l; auto; try now apply in_dom. rewrite E0. lra.
  - intros p q Op Oq L. destruct (V p (o_in p Op)) as (A & E & B & N & K), (V q (o_in q Oq)) as (A' & E' & B' & N' & K').
    apply bmul_l; auto; try (apply in_dom, W1; auto; split; auto; apply ev_bound). apply W2; auto; [|apply ev_bound].
    rewrite E, E'. apply Ropp_le_contravar. destruct Op, Oq. apply L2; auto; lra.
Qed.

(** *** gamma, chi-squared, beta *)
Lemma scaled_q Q s g : bpos s -> (forall p, in01 p -> Q p = if Beqb p (bofZ 0) then bofZ 0 else if Beqb p (bofZ 1) then pI else bmul s (g p)) ->
  b64_incr (bofZ 0) (bofZ 1) (bofZ 0) plus_inf g -> qinc Q.
Proof.
  intros Ps S H. pose proof maxR_pos as M. destruct z0 as [Z0 E0], z1 as [Z1 E1]. destruct (incr_ev _ _ _ _ _ Z0 Z1 H) as [W1 W2]. rewrite E0, E1 in W1. rewrite E0, E1 in W2.
  assert (D0 : ev (bmul s (bofZ 0)) = 0).
  { destruct (bofZ_R 0 ltac:(sm)) as [Z0R Z0F]. rewrite (proj2 (mul_ff _ _ (proj1 Ps) Z0F)), Z0R. now rewrite Rmult_0_r, rc_0. }
  apply (qinc_tri _ (bofZ 0) pI (fun p => bmul s (g p))); auto; try reflexivity; try (unfold pI; rewrite ?E0, ?ev_p; lra).
  - intros p [N B]. destruct (W1 p N) as [X Y]; [lra|]. split; [now apply bmul_l_nn|]. split; [|apply ev_bound]. rewrite E0, <- D0. apply bmul_l; auto; try now apply in_dom. lra.
  - intros p q [Np Bp] [Nq Bq] L. apply bmul_l; auto; try (apply in_dom, W1; auto; lra). apply W2; auto; lra.
Qed.
Lemma qgamma_qinc shape scale : incgamma_inv_ok F -> b64_pos shape -> big_eps scale -> qinc (fun p => qgamma (N:=NB) p shape scale).
Proof.
  intros H Psh Bsc. destruct (big_eps_pos _ Bsc) as (Psc & Psc' & Esc). pose proof (pos_bpos _ Psh) as Psh'.
  apply (scaled_q _ scale (t_incgamma_inv F shape)); auto.
  intros p I. unfold qgamma, gamma_sanity2, any_nan2. rewrite pvc, (nan_nn F shape), (nan_nn F scale) by (auto; apply nn_fin; apply Psh' || apply Psc').
  cbn [orb]. change (ltb shape (ofZ 0)) with (Bltb shape (bofZ 0)). rewrite lt0_f by (try apply Psh'; left; apply Psh').
  rewrite (proj2 (eps_lt_f F scale (nn_fin _ (proj1 Psc'))) Esc). cbn [negb]. eqs. rewrite (eq0_f shape) by auto. unfold any_posinf2. rewrite !posinf_fin by (apply Psh' || apply Psc'). reflexivity.
Qed.
Lemma qchisq_qinc dof : incgamma_inv_ok F -> b64_pos dof -> b64_pos (bdiv dof (bofZ 2)) -> qinc (fun p => qchisq (N:=NB) p dof).
Proof.
  intros H Pd Ph. pose proof (pos_bpos _ Pd) as Pd'. destruct (bofZ_R 2 ltac:(sm)) as [A2 F2].
  apply (scaled_q _ (bofZ 2) (t_incgamma_inv F (bdiv dof (bofZ 2)))); auto; [split; [auto|lra]|].
  intros p I. unfold qchisq, chisq_sanity1. rewrite pvc, (nan_nn F dof) by (auto; apply nn_fin; apply Pd'). change (ltb dof (ofZ 0)) with (Bltb dof (bofZ 0)). rewrite lt0_f by (try apply Pd'; left; apply Pd'). reflexivity.
Qed.
Lemma qbeta_qinc a b : incbeta_inv_ok F -> b64_pos a -> b64_pos b -> qinc (fun p => qbeta (N:=NB) p a b).
Proof.
  intros H Pa Pb. pose proof (pos_bpos _ Pa) as Pa'. pose proof (pos_bpos _ Pb) as Pb'. destruct z0 as [Z0 E0], z1 as [Z1 E1].
  destruct (incr_ev _ _ _ _ _ Z0 Z1 (H a b Pa Pb)) as [W1 W2]. rewrite E0, E1 in W1. rewrite E0, E1 in W2.
  apply (qinc_tri _ (bofZ 0) (bofZ 1) (t_incbeta_inv F a b)); auto; try (rewrite ?E0, ?E1; lra).
  - intros p I. unfold qbeta, beta_sanity2, any_nan2. rewrite pvc, (nan_nn F a), (nan_nn F b) by (auto; apply nn_fin; apply Pa' || apply Pb'). cbn [orb].
    change (ltb a (ofZ 0)) with (Bltb a (bofZ 0)). change (ltb b (ofZ 0)) with (Bltb b (bofZ 0)). rewrite !lt0_f by (try apply Pa'; try apply Pb'; left; apply Pa' || apply Pb'). cbn [negb]. eqs.
    rewrite !(eq0_f a), !(eq0_f b) by auto. unfold any_posinf2. rewrite !posinf_fin by (apply Pa' || apply Pb'). reflexivity.
  - intros p [N B]. rewrite E0, E1. apply W1; auto. lra.
  - intros p q [Np Bp] [Nq Bq] L. apply W2; auto; lra.
Qed.

(** *** uniform *)
Lemma qunif_qinc a b : bfin a -> bfin b -> B2R a < B2R b -> bfin (bsub b a) -> qinc (fun p => qunif (N:=NB) p a b).
Proof.
  intros Fa Fb L Fd.
  assert (S : forall p, in01 p -> qunif (N:=NB) p a b = if Beqb p (bofZ 0) then a else if Beqb p (bofZ 1) then b else badd a (bmul p (bsub b a))).
  { intros p I. unfold qunif. rewrite pvc by auto. rewrite unif2_ok by auto. cbn [negb]. unfold any_inf2. rewrite !inf_fin by auto. reflexivity. }
  assert (Pd : bpos (bsub b a)).
  { split; auto. rewrite <- ev_fin by auto. rewrite (proj2 (sub_ff b a Fb Fa)). unfold rc. pose proof (rnd_pos_diff a b L) as Q. pose proof maxR_pos.
    unfold Rmax, Rmin. repeat destruct Rle_dec; lra. }
  apply (qinc_tri _ a b (fun p => badd a (bmul p (bsub b a)))); auto using nn_fin; [rewrite !ev_fin by auto; lra| |].
  - intros p O. destruct (in01o_fin p O) as [Fp Rp]. destruct (qunif_range F p a b Fp ltac:(lra) Fa Fb L Fd) as (v & E & Fv & Rv).
    rewrite S in E by now apply o_in. rewrite (proj1 (neq01 p O)), (proj2 (neq01 p O)) in E. rewrite E. split; [now apply nn_fin|]. now rewrite !ev_fin.
  - intros p q Op Oq Lpq. destruct (in01o_fin p Op) as [Fp Rp], (in01o_fin q Oq) as [Fq Rq].
    apply badd_l; auto; try (apply in_dom; apply bmul_r_nn; auto; now apply nn_fin). apply bmul_r; auto; apply in_dom; now apply nn_fin.
Qed.

(** *** Bernoulli, Rademacher *)
Lemma two_vals Q c lo hi : nn c -> nn lo -> nn hi -> ev lo <= ev hi -> (forall p, in01 p -> Q p = if Bltb c p then hi else lo) -> qinc Q.
Proof.
  intros Nc Nl Nh L S. split.
  - intros p I. rewrite S by auto. destruct (Bltb c p); auto.
  - intros p q Ip Iq Lpq. rewrite !S by auto. destruct (Bltb c p) eqn:E1, (Bltb c q) eqn:E2; try lra.
    apply (ltb_ev c p Nc (proj1 Ip)) in E1. apply (ltb_ev_f c q Nc (proj1 Iq)) in E2. lra.
Qed.
Lemma qbern_qinc prob : Bleb (bofZ 0) prob = true -> Bleb prob (bofZ 1) = true -> qinc (fun p => qbern (N:=NB) p prob).
Proof.
  intros A B. destruct (prob_range prob A B) as [Fp Rp]. rewrite <- (ev_fin prob Fp) in Rp. destruct (one_minus prob (nn_fin _ Fp) Rp) as (U & _ & V). destruct z0 as [Z0 E0], z1 as [Z1 E1].
  apply (two_vals _ (bsub (bofZ 1) prob) (bofZ 0) (bofZ 1)); auto; [rewrite E0, E1; lra|]. intros p I. unfold qbern. rewrite bern_ok, pvc by auto. reflexivity.
Qed.
Lemma qradem_qinc prob : Bleb (bofZ 0) prob = true -> Bleb prob (bofZ 1) = true -> qinc (fun p => qradem (N:=NB) p prob).
Proof.
  intros A B. destruct (prob_range prob A B) as [Fp Rp]. rewrite <- (ev_fin prob Fp) in Rp. destruct (one_minus prob (nn_fin _ Fp) Rp) as (U & _ & V). destruct z1 as [Z1 E1], (ev_Z (-1) ltac:(sm)) as [Zm Em].
  apply (two_vals _ (bsub (bofZ 1) prob) (bofZ (-1)) (bofZ 1)); auto; [rewrite Em, E1; lra|]. intros p I. unfold qradem. change (radem_sanity (N:=NB) prob) with (bern_sanity (N:=NB) prob). rewrite bern_ok, pvc by auto. reflexivity.
Qed.
End Q.
