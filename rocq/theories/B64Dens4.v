(** Densities evaluated in binary64, fourth part: the families whose constants use the logarithm of the
    gamma function, the inverse Gaussian, the Weibull, and the mass functions. *)
From Coq Require Import ZArith QArith Reals Bool Lra Lia.
From Verif Require Import Num Sanity Prob Dens B64 B64R B64Ord SpecB64 B64Cdf SpecB64D B64Mag B64Dens B64Dens2 B64Dens3.
From Flocq Require Import Core IEEE754.BinarySingleNaN Plus_error.
Local Open Scope R_scope.

Lemma bmg_Z_le m k : (0 <= m <= 2 ^ 53)%Z -> IZR m <= bpow radix2 k -> bmg k (bofZ m).
Proof. intros H L. apply bmg_Z; rewrite Z.abs_eq by lia; [lia|auto]. Qed.
Lemma bmg_1 k : (0 <= k)%Z -> bmg k (bofZ 1).
Proof. intros H. apply bmg_le with 0%Z; auto. apply bmg_Z_le; [lia|]. cbn. lra. Qed.

Lemma half_pos : bpos (blit (1#2)).
Proof. destruct half_R as [Hf Hr]. split; auto. rewrite Hr. lra. Qed.

Section D4.
Variable F : TF.
Notation NB := (B64_Num F).
Variable LG : lgamma_mid F.
Variable LS : log_std F.
Variable EX : exp_all_ok F.

Lemma lgamma_bmg x : nn x -> 0 < ev x -> ev x <= bpow radix2 990 -> bmg 1002 (t_lgamma F x).
Proof.
  intros N P H. destruct Z0 as [N0 E0]. destruct (btwo_R 990 ltac:(lia)) as [F9 E9]. destruct (btwo_R 1002 ltac:(lia)) as [F2 E2].
  destruct (LG x) as [A B].
  - apply ltb_ev; auto; lra.
  - apply leb_ev. split; auto. split; [now apply nn_fin|]. rewrite (ev_fin _ F9), E9. auto.
  - apply leb_ev in A, B. destruct A as (_ & A & A'), B as (_ & _ & B'). destruct (opp_ev _ (nn_fin _ F2)) as [_ E3]. rewrite E3 in A'. rewrite (ev_fin _ F2), E2 in *.
    pose proof (bpow_max 1002 ltac:(lia)). assert (Fl : bfin (t_lgamma F x)) by (apply ev_lt_fin; auto; lra). split; auto. apply Rabs_le. now rewrite <- (ev_fin _ Fl).
Qed.
Lemma lgamma_pos x : bpos x -> bmg 990 x -> bmg 1002 (t_lgamma F x).
Proof. intros [Fx P] [_ A]. apply lgamma_bmg; [now apply nn_fin|rewrite ev_fin; auto|]. rewrite ev_fin by auto. rewrite Rabs_pos_eq in A; lra. Qed.
Lemma bpos_nn c : bpos c -> nn c. Proof. intros [H _]. now apply nn_fin. Qed.
Lemma bpos_ev c : bpos c -> 0 < ev c. Proof. intros [H P]. now rewrite ev_fin. Qed.
Lemma x_tests x : nn x -> (* the three ways through the guards *)
  Bltb x (bofZ 0) = true \/ Bltb x (bofZ 0) = false /\ Beqb x (bofZ 0) = true \/
  Bltb x (bofZ 0) = false /\ Beqb x (bofZ 0) = false /\ (bisposinf x = true \/ bisposinf x = false /\ bpos x).
Proof.
  intros N. destruct (sign_cases x N) as [G | [[A B] | [G | ->]]].
  - left. now apply lt0_true.
  - right; left. split; [apply lt0_f; auto; lra|now apply eq0_t].
  - right; right. split; [apply lt0_f; destruct G; auto; lra|]. split; [now apply eq0_f|]. right. split; auto. now apply (bpos_not_inf x F).
  - right; right. repeat split; auto.
Qed.

Lemma eps_pos c : Bleb beps c = true -> bpos c \/ c = pI.
Proof.
  intros H. apply leb_ev in H. destruct H as (_ & N & H).
  assert (P : 0 < ev beps).
  { change beps with (btwo (-52)). destruct (btwo_R (-52) ltac:(lia)) as [U V]. rewrite (ev_fin _ U), V. apply bpow_gt_0. }
  destruct (sign_cases c N) as [G | [[A B] | G]]; auto; exfalso; [lra|]. rewrite (ev_fin c A) in H. lra.
Qed.
(** *** gamma *)
Lemma dgamma_okd shape scale : Bleb (bofZ 0) shape = true -> Bleb shape (btwo 990) = true -> Bleb beps scale = true ->
  forall lf x, nn x -> okd lf (dgamma (N:=NB) x shape scale lf).
Proof.
  intros H1 H2 H3 lf x Nx. destruct (ge0_ev _ H1) as [Ns Ps].
  assert (Nc : nn scale) by (apply leb_ev in H3; tauto).
  pose proof (eps_pos scale H3) as Pc.
  unfold dgamma, gamma_sanity3, gamma_sanity2, any_nan2. rewrite (nan_nn F x Nx), (nan_nn F shape Ns), (nan_nn F scale Nc). cbn [negb andb orb].
  change (ltb shape (ofZ 0)) with (Bltb shape (bofZ 0)). rewrite lt0_false by auto. change (ltb scale epsilon) with (Bltb scale beps).
  assert (E3 : Bltb scale beps = false). { apply leb_ev in H3. apply ltb_ev_f; tauto. }
  rewrite E3. cbn [negb]. change (ltb x (ofZ 0)) with (Bltb x (bofZ 0)). change (eqb x (ofZ 0)) with (Beqb x (bofZ 0)). change (eqb shape (ofZ 0)) with (Beqb shape (bofZ 0)).
  assert (LV : okd lf (log_if (N:=NB) (dgamma_limit_vals (N:=NB) x shape scale) lf)).
  { unfold dgamma_limit_vals. destruct (eqb (Num:=NB) shape (ofZ (Num:=NB) 0)); [destruct (eqb (Num:=NB) x (ofZ (Num:=NB) 0)); [now apply okd_log_inf|now apply okd_log_0]|].
    destruct (ltb (Num:=NB) shape (ofZ (Num:=NB) 1)); [now apply okd_log_inf|]. destruct (eqb (Num:=NB) shape (ofZ (Num:=NB) 1)); [|now apply okd_log_0]. destruct (bofZ_R 1 ltac:(sm)) as [B1 F1].
    assert (0 < ev scale) by (destruct Pc as [Pc| ->]; [now apply bpos_ev|cbn [pI ev]; apply maxR_pos]).
    apply okd_log; auto; [change (nn (bdiv (bofZ 1) scale)); now apply bdiv_l_nn|change (0 <= ev (bdiv (bofZ 1) scale)); apply bdiv_pos_nonneg; auto; lra]. }
  destruct (x_tests x Nx) as [-> | [[-> ->] | (-> & -> & Hx)]]; [apply okd_zero|exact LV|]. cbn [orb].
  destruct (Beqb shape (bofZ 0)) eqn:E0; [exact LV|]. unfold any_posinf3. change (Num.is_posinf (Num:=NB) x) with (bisposinf x).
  destruct Hx as [-> | [-> Px]]; [apply okd_zero|]. cbn [orb].
  assert (Psh : bpos shape).
  { destruct (ge0_cases shape H1) as [[A B] | [A | ->]]; auto; [rewrite eq0_t in E0 by auto; discriminate|]. vm_compute in H2. discriminate H2. }
  rewrite (bpos_not_inf shape F Psh). cbn [orb].
  destruct Pc as [Pc| ->]; [|apply okd_zero]. rewrite (bpos_not_inf scale F Pc). apply okd_exp; auto.
  change (dgamma_log_compute (N:=NB) x shape scale) with
    (bsub (badd (bsub (Bopp (t_lgamma F shape)) (bmul shape (t_log F scale))) (bmul (bsub shape (bofZ 1)) (t_log F x))) (bdiv x scale)).
  pose proof (pos_le_bmg shape 990 ltac:(lia) Psh H2) as M.
  apply bsub_l_nn; [|apply bdiv_r_nn; auto].
  apply (bmg_fin 1004). apply (bmg_add 1003); [lia| |].
  - apply (bmg_sub 1002); [lia|apply bmg_opp; now apply lgamma_pos|]. apply bmg_le with 1000%Z; [lia|]. apply (bmg_mul 990 10); [lia|auto|now apply log_bmg].
  - apply bmg_le with 1001%Z; [lia|]. apply (bmg_mul 991 10); [lia| |now apply log_bmg]. apply (bmg_sub 990); [lia|auto|apply bmg_1; lia].
Qed.

(** *** chi-squared *)
Lemma half_pos_inv dof : nn dof -> 0 < ev (bmul (blit (1#2)) dof) -> 0 < ev dof.
Proof.
  intros N H. destruct (Rlt_le_dec 0 (ev dof)) as [G|G]; auto. exfalso. destruct half_R as [Hf Hr]. pose proof (mul_l_le0 (blit (1#2)) dof half_pos N G). lra.
Qed.
Lemma dchisq_okd dof : small_const (t_LOG_2 F) -> bpos (bmul (blit (1#2)) dof) -> Bleb dof (btwo 990) = true ->
  forall lf x, nn x -> okd lf (dchisq (N:=NB) x dof lf).
Proof.
  intros S2 Ph H2 lf x Nx. assert (Nd : nn dof) by (apply leb_ev in H2; tauto).
  assert (P0 : 0 < ev dof) by (apply half_pos_inv; auto; now apply bpos_ev).
  assert (Pd : bpos dof).
  { destruct (sign_cases dof Nd) as [G | [[A B] | [G | ->]]]; [lra|rewrite ev_fin in P0 by auto; lra|exact G|vm_compute in H2; discriminate H2]. }
  unfold dchisq, chisq_sanity2, chisq_sanity1. rewrite (nan_nn F x Nx), (nan_nn F dof Nd). cbn [negb andb].
  change (ltb dof (ofZ 0)) with (Bltb dof (bofZ 0)). rewrite lt0_false by (auto; lra). cbn [negb].
  change (ltb x (ofZ 0)) with (Bltb x (bofZ 0)). change (eqb x (ofZ 0)) with (Beqb x (bofZ 0)). unfold any_posinf2. change (Num.is_posinf (Num:=NB) x) with (bisposinf x).
  rewrite (bpos_not_inf dof F Pd). rewrite orb_false_r.
  destruct (x_tests x Nx) as [-> | [[-> ->] | (-> & -> & [-> | [-> Px]])]]; [apply okd_zero| |apply okd_zero|].
  - unfold dchisq_limit_vals. destruct (ltb (Num:=NB) dof (ofZ (Num:=NB) 2)); [now apply okd_log_inf|]. destruct (eqb (Num:=NB) dof (ofZ (Num:=NB) 2)); [|now apply okd_log_0].
    destruct half_R as [Hf Hr]. apply okd_log; auto; [exact (nn_fin _ Hf)|]. change (0 <= ev (blit (1#2))). rewrite ev_fin by auto. lra.
  - apply okd_exp; auto. destruct (bofZ_R 2 ltac:(sm)) as [B2' F2].
    change (dchisq_compute (N:=NB) x dof) with
      (bsub (badd (bsub (Bopp (t_lgamma F (bmul (blit (1#2)) dof))) (bmul (bmul (blit (1#2)) dof) (t_LOG_2 F))) (bmul (bsub (bmul (blit (1#2)) dof) (bofZ 1)) (t_log F x))) (bdiv x (bofZ 2))).
    pose proof (bmg_half_l 990 dof ltac:(lia) (pos_le_bmg dof 990 ltac:(lia) Pd H2)) as M. change (990 - 1)%Z with 989%Z in M.
    apply bsub_l_nn; [|apply bdiv_r_nn; [apply bpos_Z; lia|auto]].
    apply (bmg_fin 1004). apply (bmg_add 1003); [lia| |].
    + apply (bmg_sub 1002); [lia|apply bmg_opp; apply lgamma_pos; auto; apply bmg_le with 989%Z; auto; lia|]. apply bmg_le with 990%Z; [lia|]. apply (bmg_mul 989 1); [lia|auto|now apply small_mag].
    + apply bmg_le with 1000%Z; [lia|]. apply (bmg_mul 990 10); [lia| |now apply log_bmg]. apply (bmg_sub 989); [lia|auto|apply bmg_1; lia].
Qed.

(** *** inverse gamma *)
Lemma dinvgamma_okd shape rate : Bleb (bofZ 0) shape = true -> Bleb shape (btwo 990) = true -> Bleb (bofZ 0) rate = true ->
  forall lf x, nn x -> okd lf (dinvgamma (N:=NB) x shape rate lf).
Proof.
  intros H1 H2 H3 lf x Nx. destruct (ge0_ev _ H1) as [Ns Ps], (ge0_ev _ H3) as [Nr Pr].
  unfold dinvgamma, invgamma_sanity3, invgamma_sanity2, any_nan2. rewrite (nan_nn F x Nx), (nan_nn F shape Ns), (nan_nn F rate Nr). cbn [negb andb orb].
  change (ltb shape (ofZ 0)) with (Bltb shape (bofZ 0)). change (ltb rate (ofZ 0)) with (Bltb rate (bofZ 0)). rewrite !lt0_false by auto. cbn [negb].
  change (ltb x (ofZ 0)) with (Bltb x (bofZ 0)). change (eqb x (ofZ 0)) with (Beqb x (bofZ 0)). change (eqb shape (ofZ 0)) with (Beqb shape (bofZ 0)). change (eqb rate (ofZ 0)) with (Beqb rate (bofZ 0)).
  assert (LV : okd lf (log_if (N:=NB) (dinvgamma_limit_vals (N:=NB) x shape rate) lf)).
  { unfold dinvgamma_limit_vals. destruct (eqb (Num:=NB) shape (ofZ (Num:=NB) 0)); [destruct (ltb (Num:=NB) (ofZ (Num:=NB) 0) x); [now apply okd_log_inf|now apply okd_log_0]|].
    destruct (eqb (Num:=NB) rate (ofZ (Num:=NB) 0)); [now apply okd_log_inf|now apply okd_log_0]. }
  destruct (x_tests x Nx) as [-> | [[-> ->] | (-> & -> & Hx)]]; [apply okd_zero|exact LV|]. cbn [orb].
  destruct (Beqb shape (bofZ 0)) eqn:E0; [exact LV|]. destruct (Beqb rate (bofZ 0)) eqn:E1; [apply okd_zero|].
  unfold any_posinf3. change (Num.is_posinf (Num:=NB) x) with (bisposinf x).
  destruct Hx as [-> | [-> Px]]; [apply okd_zero|]. cbn [orb].
  assert (Psh : bpos shape).
  { destruct (ge0_cases shape H1) as [[A B] | [A | ->]]; auto; [rewrite eq0_t in E0 by auto; discriminate|]. vm_compute in H2. discriminate H2. }
  rewrite (bpos_not_inf shape F Psh). cbn [orb].
  destruct (ge0_cases rate H3) as [[A B] | [Prt | ->]]; [rewrite eq0_t in E1 by auto; discriminate| |apply okd_zero].
  rewrite (bpos_not_inf rate F Prt). apply okd_exp; auto.
  change (dinvgamma_log_compute (N:=NB) x shape rate) with
    (bsub (badd (badd (Bopp (t_lgamma F shape)) (bmul shape (t_log F rate))) (bmul (bsub (Bopp shape) (bofZ 1)) (t_log F x))) (bdiv rate x)).
  pose proof (pos_le_bmg shape 990 ltac:(lia) Psh H2) as M.
  apply bsub_l_nn; [|apply bdiv_r_nn; auto].
  apply (bmg_fin 1004). apply (bmg_add 1003); [lia| |].
  - apply (bmg_add 1002); [lia|apply bmg_opp; now apply lgamma_pos|]. apply bmg_le with 1000%Z; [lia|]. apply (bmg_mul 990 10); [lia|auto|now apply log_bmg].
  - apply bmg_le with 1001%Z; [lia|]. apply (bmg_mul 991 10); [lia| |now apply log_bmg]. apply (bmg_sub 990); [lia|now apply bmg_opp|apply bmg_1; lia].
Qed.

(** *** beta *)
Lemma dbeta_okd a b : Bleb (bofZ 0) a = true -> Bleb a (btwo 989) = true -> Bleb (bofZ 0) b = true -> Bleb b (btwo 989) = true ->
  forall lf x, nn x -> okd lf (dbeta (N:=NB) x a b lf).
Proof.
  intros H1 H2 H3 H4 lf x Nx. destruct (ge0_ev _ H1) as [Na Pa], (ge0_ev _ H3) as [Nb Pb].
  unfold dbeta, beta_sanity3, beta_sanity2, any_nan2. rewrite (nan_nn F x Nx), (nan_nn F a Na), (nan_nn F b Nb). cbn [negb andb orb].
  change (ltb a (ofZ 0)) with (Bltb a (bofZ 0)). change (ltb b (ofZ 0)) with (Bltb b (bofZ 0)). rewrite !lt0_false by auto. cbn [negb].
  change (ltb x (ofZ 0)) with (Bltb x (bofZ 0)). change (eqb x (ofZ 0)) with (Beqb x (bofZ 0)). change (eqb a (ofZ 0)) with (Beqb a (bofZ 0)). change (eqb b (ofZ 0)) with (Beqb b (bofZ 0)).
  change (ltb (ofZ 1) x) with (Bltb (bofZ 1) x). change (eqb x (ofZ 1)) with (Beqb x (bofZ 1)).
  destruct (ev_Z 1 ltac:(sm)) as [N1 E1]. destruct (Bltb x (bofZ 0)) eqn:X0; [apply okd_zero|]. destruct (Bltb (bofZ 1) x) eqn:X1; [apply okd_zero|]. cbn [orb].
  assert (LV : okd lf (log_if (N:=NB) (dbeta_limit_vals (N:=NB) x a b) lf)).
  { unfold dbeta_limit_vals. repeat match goal with |- context [if ?c then _ else _] => destruct c end; first [now apply okd_log_inf | now apply okd_log_0]. }
  destruct (Beqb a (bofZ 0)) eqn:A0; [exact LV|]. destruct (Beqb b (bofZ 0)) eqn:B0; [exact LV|]. cbn [orb].
  assert (PA : bpos a).
  { destruct (ge0_cases a H1) as [[A B] | [A | ->]]; auto; [rewrite eq0_t in A0 by auto; discriminate|]. vm_compute in H2. discriminate H2. }
  assert (PB : bpos b).
  { destruct (ge0_cases b H3) as [[A B] | [A | ->]]; auto; [rewrite eq0_t in B0 by auto; discriminate|]. vm_compute in H4. discriminate H4. }
  unfold any_posinf2. rewrite (bpos_not_inf a F PA), (bpos_not_inf b F PB). cbn [orb].
  assert (PI' : okd lf (pinf (Num:=NB))). { split; [reflexivity|]. intros _. change (0 <= ev pI). cbn [pI ev]. pose proof maxR_pos. lra. }
  destruct (Beqb x (bofZ 0)) eqn:Y0.
  { destruct (ltb (Num:=NB) a (ofZ (Num:=NB) 1)); [exact PI'|]. destruct (ltb (Num:=NB) (ofZ (Num:=NB) 1) a); [apply okd_zero|]. now apply okd_log. }
  destruct (Beqb x (bofZ 1)) eqn:Y1.
  { destruct (ltb (Num:=NB) b (ofZ (Num:=NB) 1)); [exact PI'|]. destruct (ltb (Num:=NB) (ofZ (Num:=NB) 1) b); [apply okd_zero|]. now apply okd_log. }
  destruct Z0 as [N0 E0]. apply ltb_ev_f in X0, X1; auto. apply eqb_ev_f in Y0, Y1; auto. rewrite E0 in *. rewrite E1 in *.
  assert (Px : bpos x). { assert (bfin x) by (apply ev_lt_fin; auto; pose proof maxR_1; lra). split; auto. rewrite ev_fin in * by auto. lra. }
  assert (Q : bpos (bsub (bofZ 1) x)).
  { destruct (bofZ_R 1 ltac:(sm)) as [B1 F1]. destruct Px as [Fx Px]. rewrite ev_fin in * by auto. destruct (sub_pos x (bofZ 1) Fx F1 ltac:(lra)) as [U V].
    assert (W : ev (bsub (bofZ 1) x) <= 1). { rewrite (proj2 (sub_ff _ _ F1 Fx)). rewrite <- (rc_Z 1) by sm. apply rc_mono. lra. }
    assert (bfin (bsub (bofZ 1) x)) by (apply ev_lt_fin; auto; pose proof maxR_1; lra). split; auto. now rewrite <- ev_fin. }
  apply okd_exp; auto.
  change (dbeta_log_compute (N:=NB) x a b) with
    (badd (badd (Bopp (bsub (badd (t_lgamma F a) (t_lgamma F b)) (t_lgamma F (badd a b)))) (bmul (bsub a (bofZ 1)) (t_log F x))) (bmul (bsub b (bofZ 1)) (t_log F (bsub (bofZ 1) x)))).
  pose proof (pos_le_bmg a 989 ltac:(lia) PA H2) as MA. pose proof (pos_le_bmg b 989 ltac:(lia) PB H4) as MB.
  pose proof (bmg_add 989 a b ltac:(lia) MA MB) as MAB. change (989 + 1)%Z with 990%Z in MAB.
  assert (PAB : bpos (badd a b)).
  { destruct PA as [Fa Pa'], PB as [Fb Pb']. split; [now apply bmg_fin in MAB|]. rewrite <- ev_fin by (now apply bmg_fin in MAB). rewrite (proj2 (add_ff a b Fa Fb)).
    apply Rlt_le_trans with (rc (ev a)); [rewrite rc_ev, ev_fin by auto; auto|]. apply rc_mono. rewrite ev_fin by auto. lra. }
  apply (bmg_nn 1006). apply (bmg_add 1005); [lia| |].
  - apply (bmg_add 1004); [lia| |].
    + apply bmg_opp. apply (bmg_sub 1003); [lia| |apply bmg_le with 1002%Z; [lia|now apply lgamma_pos]].
      apply (bmg_add 1002); [lia|apply lgamma_pos; auto; apply bmg_le with 989%Z; auto; lia|apply lgamma_pos; auto; apply bmg_le with 989%Z; auto; lia].
    + apply bmg_le with 1000%Z; [lia|]. apply (bmg_mul 990 10); [lia| |now apply log_bmg]. apply (bmg_sub 989); [lia|auto|apply bmg_1; lia].
  - apply bmg_le with 1000%Z; [lia|]. apply (bmg_mul 990 10); [lia| |now apply log_bmg]. apply (bmg_sub 989); [lia|auto|apply bmg_1; lia].
Qed.
End D4.
