(** The rejection samplers evaluated in binary64: what an accepted gamma proposal looks like, and the samplers
    built on it. *)
From Coq Require Import ZArith QArith Reals Bool Lra Lia.
From Verif Require Import Num Sanity Prob Dens Quant Rand B64 B64R B64Ord SpecB64 SpecB64D SpecRandB B64Cdf B64Cdf2 B64Cdf3 B64Unif B64Quant B64Quant2 B64Mag B64Thm B64Rand.
From Flocq Require Import Core IEEE754.BinarySingleNaN.
Local Open Scope R_scope.

(** a sum is a number only if both terms are, and they are not opposite infinities *)
Lemma add_nn_inv x y : nn (badd x y) -> nn x /\ nn y.
Proof. intros H. split; [destruct x as [| | |]|destruct y as [| | |]]; try reflexivity; [discriminate H|rewrite badd_nan_r in H; discriminate H]. Qed.
Lemma sub_nn_inv x y : nn (bsub x y) -> nn x /\ nn y.
Proof. intros H. split; [destruct x as [| | |]|destruct y as [| | |]]; try reflexivity; [discriminate H|destruct x as [[]|[]| |[]]; discriminate H]. Qed.
Lemma mul_nn_inv x y : nn (bmul x y) -> nn x /\ nn y.
Proof. intros H. split; [destruct x as [| | |]|destruct y as [| | |]]; try reflexivity; [discriminate H|rewrite bmul_nan_r in H; discriminate H]. Qed.
Lemma add_minf x : nn (badd x mI) -> badd x mI = mI.
Proof. destruct x as [[]|[]| |[]]; intros H; try reflexivity; discriminate H. Qed.

Definition bz1 : b64 := badd (bofZ 1) beps.

Section RandG.
Variable F : TF.
Variable E : Type.
Variable G : Rng b64 E.
Hypothesis OK : rng_b64 G.
Hypothesis LOG : log_cut F.
Notation NB := (B64_Num F).

Lemma log_V V : nn V -> nn (t_log F V) -> nn (badd (bsub (bofZ 1) V) (t_log F V)) ->
  badd (bsub (bofZ 1) V) (t_log F V) = mI \/ bpos V.
Proof.
  intros NV NL H. destruct LOG as [(LO & L0 & LI & _) LC]. pose proof maxR_pos as M. destruct (ev_Z 0 ltac:(sm)) as [Z0 E0].
  destruct (Rtotal_order (ev V) 0) as [L|[L|L]].
  - left. destruct (LC V) as [K|K]; [apply ltb_ev; auto; lra|rewrite K in NL; discriminate|]. rewrite K in *. now apply add_minf.
  - left. assert (K : t_log F V = mI).
    { apply ev_min; auto. destruct LO as [_ W]. assert (Q : Bleb (t_log F V) (t_log F (bofZ 0)) = true).
      { apply W; apply leb_ev; repeat split; auto; unfold plus_inf; rewrite ?ev_p; lra. }
      rewrite L0 in Q. apply leb_ev in Q. unfold minus_inf in Q. rewrite ev_m in Q. pose proof (ev_bound (t_log F V)). lra. }
    rewrite K in *. now apply add_minf.
  - right. destruct (nn_cases V NV) as [FV|[->| ->]].
    + split; auto. now rewrite <- ev_fin.
    + exfalso. unfold plus_inf in LI. rewrite LI in H. discriminate H.
    + rewrite ev_m in L. lra.
Qed.
Lemma log_u_nn u : in01o u -> nn (t_log F u).
Proof.
  intros [N B]. destruct LOG as [(LO & _) _]. destruct LO as [W _]. destruct (ev_Z 0 ltac:(sm)) as [Z0 E0]. pose proof maxR_1.
  destruct (W u) as [A _]; [apply leb_ev; repeat split; auto; lra|apply leb_ev; repeat split; auto; unfold plus_inf; rewrite ev_p; lra|]. now apply leb_ev in A.
Qed.

Lemma round_pos d c e V e' : bpos d -> rgamma_round (N:=NB) G d c e = (Some V, e') -> bpos V.
Proof.
  intros P. unfold rgamma_round. destruct (rnorm01 G e) as [Z e1] eqn:EZ. destruct (ltb _ Z); [|discriminate].
  pose proof (u01 F E G OK e1) as U. destruct (runif01 G e1) as [u e2] eqn:EU. cbn [fst] in U.
  change (log (Num:=NB) u) with (t_log F u).
  set (V0 := powZ (Num:=NB) _ 3). change (log (Num:=NB) V0) with (t_log F V0).
  match goal with |- context [ltb ?a ?b] => change (ltb a b) with (Bltb a b) end.
  match goal with |- context [Bltb ?a ?b] => set (ck := b); destruct (Bltb a ck) eqn:LT end; [|discriminate].
  intros [= <- _]. destruct (ltb_nn _ _ LT) as [Nl Nc]. apply ltb_ev in LT; auto.
  assert (CK : ck = badd (bmul (bmul (blit (1#2)) Z) Z) (bmul d (badd (bsub (bofZ 1) V0) (t_log F V0)))) by reflexivity.
  rewrite CK in *. clearbody V0. destruct (add_nn_inv _ _ Nc) as [N1 N2]. destruct (mul_nn_inv _ _ N2) as [_ N3]. destruct (add_nn_inv _ _ N3) as [N4 N5]. destruct (sub_nn_inv _ _ N4) as [_ N6].
  destruct (log_V V0 N6 N5 N3) as [K|K]; auto. exfalso. rewrite K in *. unfold mI in *. rewrite mull_inf in * by auto. rewrite add_minf in LT by auto. unfold mI in LT. rewrite ev_m in LT. pose proof (ev_bound (t_log F u)). lra.
Qed.
Lemma loop_pos d c : bpos d -> forall fuel e V e', rgamma_loop (N:=NB) G fuel d c e = Some (V, e') -> bpos V.
Proof.
  intros P. induction fuel as [|fuel IH]; cbn [rgamma_loop]; [discriminate|]. intros e V e'. destruct (rgamma_round G d c e) as [[v|] e1] eqn:R.
  - intros [= <- _]. now apply (round_pos d c e v e1).
  - apply IH.
Qed.
Lemma third_R : exists t, bdiv (bofZ 1) (bofZ 3) = t /\ bfin t /\ 0 <= B2R t <= / 2.
Proof.
  eexists. split; [reflexivity|]. destruct (bofZ_R 1 ltac:(sm)) as [A1 F1], (bofZ_R 3 ltac:(sm)) as [A3 F3]. destruct (div_ff (bofZ 1) (bofZ 3) F1 F3 ltac:(lra)) as [N V].
  rewrite A1, A3 in V. destruct (fin_of (bdiv (bofZ 1) (bofZ 3)) 0 (/ 2)) as [A B]; auto; try (pose proof maxR_1; lra). rewrite V. split.
  - rewrite <- rc_0. apply rc_mono. lra.
  - rewrite <- rc_half. apply rc_mono. lra.
Qed.
Lemma d_pos shape : bfin shape -> 1 < B2R shape -> bpos (rgamma_d (N:=NB) shape).
Proof.
  intros Fs Ls. destruct third_R as (t & Et & Ft & Bt). change (rgamma_d (N:=NB) shape) with (bsub shape (bdiv (bofZ 1) (bofZ 3))). rewrite Et.
  destruct (sub_ff shape t Fs Ft) as [N V]. pose proof (fin_lt _ Fs) as Q. rewrite ev_fin in Q by auto.
  assert (B1 : / 2 <= ev (bsub shape t)) by (rewrite V, <- rc_half; apply rc_mono; lra).
  assert (B2 : ev (bsub shape t) <= ev shape) by (rewrite V, <- (rc_ev shape Fs), (ev_fin shape Fs); apply rc_mono; lra).
  rewrite (ev_fin shape Fs) in B2. assert (Fd : bfin (bsub shape t)) by (apply ev_lt_fin; auto; pose proof maxR_pos; lra). split; auto. rewrite <- ev_fin by auto. lra.
Qed.
Lemma g_sanity shape scale : bfin shape -> 0 <= B2R shape -> big_eps scale -> gamma_sanity2 (N:=NB) shape scale = true.
Proof.
  intros Fs Ls Bs. destruct (big_eps_pos _ Bs) as (_ & [Fc Pc] & Ec). unfold gamma_sanity2, any_nan2. rewrite (nan_nn F shape), (nan_nn F scale) by (now apply nn_fin). cbn [orb].
  change (ltb shape (ofZ 0)) with (Bltb shape (bofZ 0)). rewrite lt0_f by auto. now rewrite (proj2 (eps_lt_f F scale (nn_fin _ Fc)) Ec).
Qed.
Lemma ltb1 shape : bfin shape -> 1 < B2R shape -> Bltb (bofZ 1) shape = true.
Proof. intros Fs L. destruct (ev_Z 1 ltac:(sm)) as [N E1]. apply ltb_ev; auto; [now apply nn_fin|]. rewrite E1, ev_fin by auto. auto. Qed.
(** shape above one *)
Lemma rgamma_big depth fuel shape scale e v e' : bfin shape -> 1 < B2R shape -> big_eps scale ->
  rgamma_rec (N:=NB) G depth fuel shape scale e = Some (v, e') -> nonneg v.
Proof.
  intros Fs Ls Bs. destruct depth as [|depth]; cbn [rgamma_rec]; [discriminate|]. rewrite g_sanity by (auto; lra). cbn [negb].
  change (ltb (ofZ 1) shape) with (Bltb (bofZ 1) shape). rewrite ltb1 by auto.
  destruct (rgamma_loop G fuel _ _ e) as [[V e1]|] eqn:L; [|discriminate]. intros [= <- _]. apply loop_pos in L; [|now apply d_pos].
  change (nonneg (bmul (bmul (rgamma_d (N:=NB) shape) V) scale)). apply nonneg_mul_r; [apply mul_pp; auto; now apply d_pos|]. apply (big_eps_pos _ Bs).
Qed.
Lemma one_plus shape : big_eps shape -> B2R shape <= 1 -> bfin (badd (bofZ 1) shape) /\ 1 < B2R (badd (bofZ 1) shape).
Proof.
  intros H L. destruct (big_eps_pos _ H) as (_ & [Fs Ps] & Es). destruct (bofZ_R 1 ltac:(sm)) as [A1 F1]. destruct (add_ff (bofZ 1) shape F1 Fs) as [N V]. rewrite A1 in V.
  rewrite (ev_fin shape Fs) in Es. rewrite (ev_fin beps) in Es by (vm_compute; reflexivity).
  assert (B : 1 + B2R beps <= ev (badd (bofZ 1) shape)).
  { rewrite V. assert (Q : rc (1 + B2R beps) = 1 + B2R beps).
    { assert (R : bfin (bz1) /\ B2R bz1 = 1 + B2R beps) by (split; [vm_compute; reflexivity|vm_compute; lra]). destruct R as [R1 R2]. rewrite <- R2, <- (ev_fin bz1 R1). now apply rc_ev. }
    rewrite <- Q. apply rc_mono. lra. }
  assert (0 < B2R beps) by (vm_compute; lra).
  assert (U : ev (badd (bofZ 1) shape) <= 2) by (rewrite V, <- (rc_Z 2 ltac:(sm)); apply rc_mono; lra).
  pose proof maxR_1. assert (Fz : bfin (badd (bofZ 1) shape)) by (apply ev_lt_fin; auto; lra). split; auto. rewrite <- ev_fin by auto. lra.
Qed.

Hypothesis POW : pow_unit F.
Lemma pow_u u c : in01o u -> b64_pos c -> nonneg (t_pow F u c) /\ ev (t_pow F u c) <= 1.
Proof.
  intros U P. destruct POW as [PO PU]. destruct (PU c P) as [P1 PZ]. destruct (PO c P) as [A B]. destruct U as [N U]. destruct (ev_Z 0 ltac:(sm)) as [Z0 E0], (ev_Z 1 ltac:(sm)) as [Z1 E1]. pose proof maxR_1 as M.
  assert (H0 : Bleb (bofZ 0) u = true) by (apply leb_ev; repeat split; auto; lra).
  assert (H1 : Bleb u (bofZ 1) = true) by (apply leb_ev; repeat split; auto; lra).
  destruct (A u H0) as [C _]; [apply leb_ev; repeat split; auto; unfold plus_inf; rewrite ev_p; lra|]. apply leb_ev in C. destruct C as (_ & Np & Lp). rewrite E0 in Lp.
  split; [repeat split; auto; apply PZ; apply ltb_ev; auto; lra|].
  assert (Q : Bleb (t_pow F u c) (t_pow F (bofZ 1) c) = true) by (apply B; auto; apply leb_ev; repeat split; auto; unfold plus_inf; rewrite ev_p; lra).
  rewrite P1 in Q. apply leb_ev in Q. lra.
Qed.
Lemma mul_unit X p : nonneg X -> X <> pI -> nonneg p -> ev p <= 1 -> nonneg (bmul X p).
Proof.
  intros H NI K L. pose proof maxR_1. destruct (nonneg_cases X H) as [->|[->|P]]; [|congruence|];
    destruct (nonneg_cases p K) as [->|[->|Q]]; try (unfold pI in L; rewrite ev_p in L; lra).
  - exact nonneg_z.
  - destruct (bpos_shape p Q) as (m & e & B & ->). exact nonneg_z.
  - destruct (bpos_shape X P) as (m & e & B & ->). exact nonneg_z.
  - now apply mul_pp.
Qed.
(** shape at most one: a NaN only from an infinite draw with shape one larger *)
Lemma rgamma_small depth fuel shape scale e v e' : big_eps shape -> B2R shape <= 1 -> big_eps scale ->
  rgamma_rec (N:=NB) G depth fuel shape scale e = Some (v, e') ->
  exists depth' e1 X, rgamma_rec (N:=NB) G depth' fuel (badd (bofZ 1) shape) scale e1 = Some (X, e') /\ nonneg X /\ nz v /\ (X <> pI -> nonneg v).
Proof.
  intros Bsh Ls Bs. destruct (big_eps_pos _ Bsh) as (_ & [Fs Ps] & _). destruct depth as [|depth]; cbn [rgamma_rec]; [discriminate|]. rewrite g_sanity by (auto; lra). cbn [negb].
  change (ltb (ofZ 1) shape) with (Bltb (bofZ 1) shape). replace (Bltb (bofZ 1) shape) with false.
  2:{ symmetry. destruct (ev_Z 1 ltac:(sm)) as [N1 E1]. apply ltb_ev_f; auto; [now apply nn_fin|]. rewrite E1, ev_fin; auto. }
  pose proof (u01 F E G OK e) as U. destruct (runif01 G e) as [u e1] eqn:EU. cbn [fst] in U.
  change (add (ofZ 1) shape) with (badd (bofZ 1) shape). destruct (rgamma_rec G depth fuel (badd (bofZ 1) shape) scale e1) as [[X e2]|] eqn:R; [|discriminate].
  intros [= <- <-]. destruct (one_plus shape Bsh Ls) as [F1 L1]. pose proof (rgamma_big depth fuel _ scale e1 X e2 F1 L1 Bs R) as HX.
  destruct (pow_u u (bdiv (bofZ 1) shape) U (recip_pos shape Bsh)) as [Hp Lp].
  exists depth, e1, X. split; auto. split; auto. split; [apply nz_mul; now right|]. intros NI. apply mul_unit; auto.
Qed.
Lemma big_R shape : big_eps shape -> bfin shape /\ 0 < B2R shape. Proof. intros H. now destruct (big_eps_pos _ H) as (_ & K & _). Qed.
Lemma rgamma_any fuel shape scale e v e' : big_eps shape -> big_eps scale -> rgamma (N:=NB) G fuel shape scale e = Some (v, e') -> nz v.
Proof.
  intros Bsh Bs H. destruct (big_R _ Bsh) as [Fs Ps]. unfold rgamma in H. destruct (Rlt_le_dec 1 (B2R shape)) as [L|L].
  - right. eapply rgamma_big; eauto.
  - destruct (rgamma_small _ _ _ _ _ _ _ Bsh L Bs H) as (_ & _ & _ & _ & _ & K & _). exact K.
Qed.
Lemma half_big dof : big_eps (bdiv dof (bofZ 2)) -> big_eps dof -> chisq_sanity1 (N:=NB) dof = true.
Proof.
  intros _ H. destruct (big_R _ H) as [Fd Pd]. unfold chisq_sanity1. rewrite (nan_nn F dof) by (now apply nn_fin). change (ltb dof (ofZ 0)) with (Bltb dof (bofZ 0)). rewrite lt0_f by (auto; lra). reflexivity.
Qed.
Lemma two_big : big_eps (bofZ 2). Proof. split; vm_compute; reflexivity. Qed.
Lemma one_big : big_eps (bofZ 1). Proof. split; vm_compute; reflexivity. Qed.
Lemma rchisq_any fuel dof e v e' : big_eps (bdiv dof (bofZ 2)) -> big_eps dof -> rchisq (N:=NB) G fuel dof e = Some (v, e') -> nz v.
Proof. intros A B. unfold rchisq. rewrite half_big by auto. cbn [negb]. apply rgamma_any; auto. apply two_big. Qed.
Lemma rchisq_big fuel dof e v e' : b64_pos (bdiv dof (bofZ 2)) -> 1 < B2R (bdiv dof (bofZ 2)) -> big_eps dof -> rchisq (N:=NB) G fuel dof e = Some (v, e') -> nonneg v.
Proof.
  intros A L B. unfold rchisq, rgamma. replace (chisq_sanity1 (N:=NB) dof) with true.
  2:{ symmetry. destruct (big_R _ B) as [Fd Pd]. unfold chisq_sanity1. rewrite (nan_nn F dof) by (now apply nn_fin). change (ltb dof (ofZ 0)) with (Bltb dof (bofZ 0)). rewrite lt0_f by (auto; lra). reflexivity. }
  cbn [negb]. apply rgamma_big; auto; [apply (pos_bpos _ A)|apply two_big].
Qed.
Lemma rinvgamma_any fuel shape rate e v e' : big_eps shape -> bpos rate -> big_eps (bdiv (bofZ 1) rate) -> rinvgamma (N:=NB) G fuel shape rate e = Some (v, e') -> nz v.
Proof.
  intros A [Fr Pr] C. destruct (big_R _ A) as [Fs Ps]. unfold rinvgamma, invgamma_sanity2, any_nan2. rewrite (nan_nn F shape), (nan_nn F rate) by (now apply nn_fin).
  cbn [orb]. change (ltb shape (ofZ 0)) with (Bltb shape (bofZ 0)). change (ltb rate (ofZ 0)) with (Bltb rate (bofZ 0)). rewrite !lt0_f by (auto; lra). cbn [negb].
  change (div (ofZ 1) rate) with (bdiv (bofZ 1) rate). destruct (rgamma G fuel shape (bdiv (bofZ 1) rate) e) as [[X e1]|] eqn:R; [|discriminate]. intros [= <- _].
  change (nz (bdiv (bofZ 1) X)). apply nz_div; [right; apply nonneg_pos, one_pos|]. eapply (rgamma_any fuel shape (bdiv (bofZ 1) rate)); eauto.
Qed.
Lemma rinvgamma_big fuel shape rate e v e' : bfin shape -> 1 < B2R shape -> bpos rate -> big_eps (bdiv (bofZ 1) rate) -> rinvgamma (N:=NB) G fuel shape rate e = Some (v, e') -> nn v /\ 0 <= ev v.
Proof.
  intros Fs Ls [Fr Pr] C. unfold rinvgamma, invgamma_sanity2, any_nan2. rewrite (nan_nn F shape), (nan_nn F rate) by (now apply nn_fin).
  cbn [orb]. change (ltb shape (ofZ 0)) with (Bltb shape (bofZ 0)). change (ltb rate (ofZ 0)) with (Bltb rate (bofZ 0)). rewrite !lt0_f by (auto; lra). cbn [negb].
  change (div (ofZ 1) rate) with (bdiv (bofZ 1) rate). destruct (rgamma G fuel shape (bdiv (bofZ 1) rate) e) as [[X e1]|] eqn:R; [|discriminate]. intros [= <- _].
  change (nn (bdiv (bofZ 1) X) /\ 0 <= ev (bdiv (bofZ 1) X)). apply div_nonneg; [apply one_pos|]. unfold rgamma in R. apply (rgamma_big _ _ _ _ _ _ _ Fs Ls C R).
Qed.
Lemma rbeta_any fuel a b e v e' : big_eps a -> big_eps b -> rbeta (N:=NB) G fuel a b e = Some (v, e') -> v = B754_nan \/ (Bleb (bofZ 0) v = true /\ Bleb v (bofZ 1) = true).
Proof.
  intros A B. destruct (big_R _ A) as [Fa Pa], (big_R _ B) as [Fb Pb]. unfold rbeta, beta_sanity2, any_nan2. rewrite (nan_nn F a), (nan_nn F b) by (now apply nn_fin).
  cbn [orb]. change (ltb a (ofZ 0)) with (Bltb a (bofZ 0)). change (ltb b (ofZ 0)) with (Bltb b (bofZ 0)). rewrite !lt0_f by (auto; lra). cbn [negb].
  change (ofZ 1) with (bofZ 1). destruct (rgamma G fuel a (bofZ 1) e) as [[X e1]|] eqn:R1; [|discriminate]. destruct (rgamma G fuel b (bofZ 1) e1) as [[Y e2]|] eqn:R2; [|discriminate].
  intros [= <- _]. apply rgamma_any in R1; auto; [|apply one_big]. apply rgamma_any in R2; auto; [|apply one_big]. now apply share.
Qed.
Lemma rf_any fuel df1 df2 e v e' : big_eps df1 -> big_eps (bdiv df1 (bofZ 2)) -> big_eps df2 -> big_eps (bdiv df2 (bofZ 2)) -> rf (N:=NB) G fuel df1 df2 e = Some (v, e') -> nz v.
Proof.
  intros A A2 B B2. destruct (big_eps_pos _ A) as (_ & [Fa Pa] & Ea), (big_eps_pos _ B) as (_ & [Fb Pb] & Eb). unfold rf.
  replace (f_sanity2 (N:=NB) df1 df2) with true.
  2:{ symmetry. unfold f_sanity2, any_nan2. rewrite (nan_nn F df1), (nan_nn F df2) by (now apply nn_fin). cbn [orb].
      repeat match goal with |- context [ltb ?a (ofZ 0)] => change (ltb a (ofZ 0)) with (Bltb a (bofZ 0)); rewrite lt0_f by (auto; lra) end.
      try rewrite (proj2 (eps_lt_f F df1 (nn_fin _ Fa)) Ea). try rewrite (proj2 (eps_lt_f F df2 (nn_fin _ Fb)) Eb). reflexivity. }
  cbn [negb]. destruct (rchisq G fuel df1 e) as [[X e1]|] eqn:R1; [|discriminate]. destruct (rchisq G fuel df2 e1) as [[Y e2]|] eqn:R2; [|discriminate].
  intros [= <- _]. apply rchisq_any in R1; auto. apply rchisq_any in R2; auto.
  change (nz (bdiv (bmul (bdiv df2 df1) X) Y)). apply nz_div; auto. apply nz_mul; auto. apply nz_div; right; apply nonneg_pos; split; auto.
Qed.

(** *** Bernoulli, Rademacher, binomial *)
Lemma prob_ok p : Bleb (bofZ 0) p = true -> Bleb p (bofZ 1) = true -> Num.is_nan (Num:=NB) p = false /\ is_inf (N:=NB) p = false /\ Bltb p (bofZ 0) = false /\ Bltb (bofZ 1) p = false.
Proof.
  intros A B. apply leb_ev in A, B. destruct A as (N0 & N & A), B as (_ & N1 & B). pose proof maxR_1. destruct (ev_Z 0 ltac:(sm)) as [_ E0], (ev_Z 1 ltac:(sm)) as [_ E1].
  repeat split; [now apply nan_nn| |now apply ltb_ev_f|now apply ltb_ev_f].
  assert (P : bfin p) by (apply (fin_of p 0 1); auto; lra). now apply (inf_fin F).
Qed.
Lemma rbern_vals prob e : Bleb (bofZ 0) prob = true -> Bleb prob (bofZ 1) = true -> fst (rbern (N:=NB) G prob e) = bofZ 0 \/ fst (rbern (N:=NB) G prob e) = bofZ 1.
Proof.
  intros A B. unfold rbern. destruct (negb _) eqn:S.
  - exfalso. destruct (prob_ok _ A B) as (P1 & P2 & P3 & P4). unfold bern_sanity in S. rewrite P1, P2 in S.
    change (ltb prob (ofZ 0)) with (Bltb prob (bofZ 0)) in S. change (ltb (ofZ 1) prob) with (Bltb (bofZ 1) prob) in S. rewrite P3, P4 in S. discriminate S.
  - destruct (runif01 G e) as [u e1]. cbn [fst]. destruct (leb u prob); auto.
Qed.
Lemma rradem_vals prob e : Bleb (bofZ 0) prob = true -> Bleb prob (bofZ 1) = true -> fst (rradem (N:=NB) G prob e) = bofZ (-1) \/ fst (rradem (N:=NB) G prob e) = bofZ 1.
Proof.
  intros A B. unfold rradem. destruct (negb _) eqn:S.
  - exfalso. destruct (prob_ok _ A B) as (P1 & P2 & P3 & P4). unfold radem_sanity in S. rewrite P1, P2 in S.
    change (ltb prob (ofZ 0)) with (Bltb prob (bofZ 0)) in S. change (ltb (ofZ 1) prob) with (Bltb (bofZ 1) prob) in S. rewrite P3, P4 in S. discriminate S.
  - destruct (runif01 G e) as [u e1]. cbn [fst]. destruct (leb u prob); auto.
Qed.
Lemma add_Z j k : (0 <= j)%Z -> (0 <= k)%Z -> (j + k <= 2 ^ 53)%Z -> badd (bofZ j) (bofZ k) = bofZ (j + k).
Proof.
  intros Hj Hk H. destruct (bofZ_R j ltac:(lia)) as [A1 F1], (bofZ_R k ltac:(lia)) as [A2 F2], (bofZ_R (j + k) ltac:(lia)) as [A3 F3].
  destruct (add_ff _ _ F1 F2) as [N V]. rewrite A1, A2, <- plus_IZR, rc_Z in V by lia. pose proof (fin_lt _ F3) as Q. rewrite ev_fin, A3 in Q by auto.
  assert (Fs : bfin (badd (bofZ j) (bofZ k))) by (apply ev_lt_fin; auto; rewrite V; exact Q). rewrite ev_fin in V by auto.
  apply B2R_Bsign_inj; auto; [now rewrite A3|].
  assert (S : forall z, (0 <= z)%Z -> (z <= 2 ^ 53)%Z -> Bsign (bofZ z) = false).
  { intros z Hz Hz2. destruct (bofZ_R z ltac:(lia)) as [Az Fz]. destruct (Z.eq_dec z 0) as [->|Nz]; [reflexivity|].
    destruct (bofZ z) as [s|s| |s m ex B] eqn:Eb; cbn in *; try discriminate; [exfalso; symmetry in Az; apply (eq_IZR z 0) in Az; lia|]. destruct s; auto. exfalso.
    assert (F2R (Float radix2 (Z.neg m) ex) < 0) by (apply F2R_lt_0; cbn; lia). pose proof (IZR_le 0 z Hz). cbn in *. lra. }
  rewrite (S (j + k)%Z) by lia. pose proof (Bplus_correct 53 1024 b64_prec_gt_0 b64_prec_lt_emax mode_NE (bofZ j) (bofZ k) F1 F2) as C.
  destruct (Rlt_bool _ _) in C.
  - destruct C as (_ & _ & C). unfold badd. rewrite C, A1, A2, <- plus_IZR, (S j), (S k) by lia. destruct (Rcompare_spec (IZR (j + k)) 0); auto. exfalso. apply (lt_IZR (j + k) 0) in H0. lia.
  - destruct C as [C _]. apply overflow_val in C. unfold badd in Fs. rewrite C in Fs. discriminate Fs.
Qed.
Lemma loop_vals prob : Bleb (bofZ 0) prob = true -> Bleb prob (bofZ 1) = true -> forall n k e, (0 <= k)%Z -> (k + Z.of_nat n <= 2 ^ 53)%Z ->
  exists j, (k <= j <= k + Z.of_nat n)%Z /\ fst (rbinom_loop (N:=NB) G n prob (bofZ k) e) = bofZ j.
Proof.
  intros A B. induction n as [|n IH]; intros k e Hk Hn; cbn [rbinom_loop].
  - exists k. split; [lia|reflexivity].
  - pose proof (rbern_vals prob e A B) as V. destruct (rbern G prob e) as [b e1]. cbn [fst] in V. change (add (bofZ k) b) with (badd (bofZ k) b). destruct V as [-> | ->].
    + rewrite add_Z by lia. replace (k + 0)%Z with k by lia. destruct (IH k e1 Hk ltac:(lia)) as (j & H1 & H2). exists j. split; [lia|auto].
    + rewrite add_Z by lia. destruct (IH (k + 1)%Z e1 ltac:(lia) ltac:(lia)) as (j & H1 & H2). exists j. split; [lia|auto].
Qed.
Lemma rbinom_vals n prob e : (0 <= n <= 2 ^ 53)%Z -> Bleb (bofZ 0) prob = true -> Bleb prob (bofZ 1) = true ->
  exists j, (0 <= j <= n)%Z /\ fst (rbinom (N:=NB) G n prob e) = bofZ j.
Proof.
  intros Hn A B. unfold rbinom. destruct (negb _) eqn:S.
  - exfalso. destruct (prob_ok _ A B) as (P1 & P2 & P3 & P4). unfold binom_sanity in S. rewrite P1, P2 in S.
    change (ltb prob (ofZ 0)) with (Bltb prob (bofZ 0)) in S. change (ltb (ofZ 1) prob) with (Bltb (bofZ 1) prob) in S. rewrite P3, P4 in S. replace (n <? 0)%Z with false in S by (symmetry; apply Z.ltb_ge; lia). discriminate S.
  - destruct (loop_vals prob A B (Z.to_nat n) 0 e ltac:(lia) ltac:(lia)) as (j & H1 & H2). exists j. split; [lia|exact H2].
Qed.
End RandG.
