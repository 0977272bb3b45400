(** Distribution functions in binary64, continued: Laplace, inverse gamma, uniform, Bernoulli, Rademacher. *)
From Coq Require Import ZArith QArith Reals Bool Lra Lia.
From Verif Require Import Num Sanity Prob B64 B64R B64Ord SpecB64 B64Cdf B64Cdf2 B64Unif.
From Flocq Require Import Core IEEE754.BinarySingleNaN.
Local Open Scope R_scope.

Lemma rc_opp r : rc (- r) = - rc r.
Proof.
  assert (E : rnd (- r) = - rnd r) by apply round_NE_opp. unfold rc. rewrite E. pose proof maxR_pos.
  unfold Rmax, Rmin. repeat destruct Rle_dec; lra.
Qed.
(** one minus a number of [0,1] *)
Lemma one_minus v : nn v -> 0 <= ev v <= 1 ->
  nn (bsub (bofZ 1) v) /\ ev (bsub (bofZ 1) v) = rc (1 - ev v) /\ 0 <= ev (bsub (bofZ 1) v) <= 1.
Proof.
  intros N H. pose proof maxR_1. destruct (bofZ_R 1 ltac:(sm)) as [A B].
  destruct (fin_of v 0 1 N H ltac:(lra) ltac:(lra)) as [Fv H']. destruct (sub_ff _ v B Fv) as [U V]. rewrite A in V. rewrite <- (ev_fin v Fv) in V.
  split; auto. split; auto. rewrite V. apply (rc_range 0 1); try sm. lra.
Qed.

Section CDF3.
Variable F : TF.
Notation NB := (B64_Num F).
Local Notation exp_ok := (SpecB64.exp_ok F).

(** *** Laplace *)
Lemma sgn_cases z : nn z -> (sgn (N:=NB) z = 1%Z /\ 0 < ev z) \/ (sgn (N:=NB) z = (-1)%Z /\ ev z < 0) \/ (sgn (N:=NB) z = 0%Z /\ ev z = 0).
Proof.
  intros N. destruct z0 as [Z0 E0]. unfold sgn. change (ltb (ofZ 0) z) with (Bltb (bofZ 0) z). change (ltb z (ofZ 0)) with (Bltb z (bofZ 0)).
  destruct (Bltb (bofZ 0) z) eqn:Q; [left; split; auto; apply (ltb_ev _ _ Z0 N) in Q; lra|].
  apply (ltb_ev_f _ _ Z0 N) in Q. destruct (Bltb z (bofZ 0)) eqn:Q1; [right; left; split; auto; apply (ltb_ev _ _ N Z0) in Q1; lra|].
  apply (ltb_ev_f _ _ N Z0) in Q1. right; right. split; auto; lra.
Qed.
Definition lap_u sigma (z : b64) : b64 := bsub (bofZ 1) (t_exp F (bdiv (Bopp (Babs z)) sigma)).
Lemma lap_arg sigma z : bpos sigma -> nn z -> nn (bdiv (Bopp (Babs z)) sigma) /\ ev (bdiv (Bopp (Babs z)) sigma) <= 0 /\ nn (Bopp (Babs z)) /\ ev (Bopp (Babs z)) = - Rabs (ev z).
Proof.
  intros P N. destruct (abs_ev z N) as [A B]. destruct (nn_opp _ A) as [C D]. rewrite B in D.
  split; [now apply bdiv_r_nn|]. split; auto. destruct z0 as [Z0 E0], (bofZ_R 0 ltac:(sm)) as [Z0R Z0F].
  apply Rle_trans with (ev (bdiv (bofZ 0) sigma)).
  - apply bdiv_r; auto; try now apply in_dom. rewrite D, E0. pose proof (Rabs_pos (ev z)). lra.
  - destruct P as [Fs Ps]. rewrite (proj2 (div_ff _ _ Z0F Fs ltac:(lra))), Z0R. unfold Rdiv. rewrite Rmult_0_l, rc_0. lra.
Qed.
Lemma lap_u_ok sigma z : exp_ok -> bpos sigma -> nn z -> nn (lap_u sigma z) /\ 0 <= ev (lap_u sigma z) <= 1.
Proof.
  intros H P N. destruct (lap_arg sigma z P N) as (A & B & _). destruct z0 as [Z0 E0], z1 as [Z1 E1].
  destruct (incr_ev minus_inf _ _ _ _ eq_refl Z0 H) as [W _]. rewrite E0, E1 in W. destruct (W _ A) as [C D]; [split; [apply ev_bound|lra]|].
  destruct (one_minus _ C D) as (U & _ & V). auto.
Qed.
Lemma lap_u_mono sigma z w : exp_ok -> bpos sigma -> nn z -> nn w -> Rabs (ev z) <= Rabs (ev w) -> ev (lap_u sigma z) <= ev (lap_u sigma w).
Proof.
  intros H P Nz Nw L. destruct (lap_arg sigma z P Nz) as (A & B & C & D), (lap_arg sigma w P Nw) as (A' & B' & C' & D'). destruct z0 as [Z0 E0], z1 as [Z1 E1].
  destruct (incr_ev minus_inf _ _ _ _ eq_refl Z0 H) as [W V]. rewrite E0, E1 in W. rewrite E0 in V.
  destruct (W _ A) as [X Y]; [split; [apply ev_bound|lra]|]. destruct (W _ A') as [X' Y']; [split; [apply ev_bound|lra]|].
  unfold lap_u. destruct (one_minus _ X Y) as (_ & -> & _), (one_minus _ X' Y') as (_ & -> & _). apply rc_mono.
  assert (Q : ev (t_exp F (bdiv (Bopp (Babs w)) sigma)) <= ev (t_exp F (bdiv (Bopp (Babs z)) sigma))); [|lra].
  apply V; auto; [apply ev_bound|]. apply bdiv_r; auto; try now apply in_dom. lra.
Qed.
Lemma lap_val sigma z : exp_ok -> bpos sigma -> nn z ->
  nn (plaplace_compute (N:=NB) z sigma) /\
  ev (plaplace_compute (N:=NB) z sigma) = rc (/ 2 + rc (IZR (sgn (N:=NB) z) * / 2 * ev (lap_u sigma z))) /\
  0 <= ev (plaplace_compute (N:=NB) z sigma) <= 1.
Proof.
  intros H P N. destruct (lap_u_ok sigma z H P N) as [A B]. pose proof maxR_1 as M. destruct half_R as [Hf Hr].
  change (plaplace_compute (N:=NB) z sigma) with (badd (blit (1#2)) (bmul (bmul (blit (1#2)) (bofZ (sgn (N:=NB) z))) (lap_u sigma z))).
  assert (K : (Z.abs (sgn (N:=NB) z) <= 1)%Z) by (destruct (sgn_cases z N) as [[-> _]|[[-> _]|[-> _]]]; cbn; lia).
  set (s := sgn (N:=NB) z) in *. destruct (bofZ_R s ltac:(lia)) as [S1 S2].
  destruct (mul_ff _ _ Hf S2) as [U1 U2]. rewrite Hr, S1 in U2.
  assert (U3 : rc (/ 2 * IZR s) = IZR s * / 2).
  { assert (s = 1 \/ s = -1 \/ s = 0)%Z as [-> | [-> | ->]] by lia.
    - rewrite Rmult_1_r, rc_half. lra.
    - replace (/ 2 * -1) with (- / 2) by lra. rewrite rc_opp, rc_half. lra.
    - rewrite Rmult_0_r, rc_0. lra. }
  rewrite U3 in U2.
  assert (Sb : -1 <= IZR s <= 1) by (split; apply IZR_le; lia).
  destruct (fin_of _ (- / 2) (/ 2) U1 ltac:(rewrite U2; lra) ltac:(lra) ltac:(lra)) as [U4 U5].
  destruct (fin_of _ 0 1 A B ltac:(lra) ltac:(lra)) as [L1 L2].
  destruct (mul_ff _ _ U4 L1) as [V1 V2]. rewrite <- (ev_fin _ U4), U2, <- (ev_fin _ L1) in V2.
  assert (V3 : - / 2 <= ev (bmul (bmul (blit (1#2)) (bofZ s)) (lap_u sigma z)) <= / 2).
  { rewrite V2. pose proof rc_half as Hh. pose proof (rc_opp (/ 2)) as Ho. rewrite Hh in Ho.
    assert (Bu : - / 2 <= IZR s * / 2 * ev (lap_u sigma z) <= / 2).
    { destruct B as [B0 B1]. assert (-1 * ev (lap_u sigma z) <= IZR s * ev (lap_u sigma z) <= 1 * ev (lap_u sigma z)) by (split; apply Rmult_le_compat_r; lra). lra. }
    destruct Bu as [Bl Bh]. apply rc_mono in Bl, Bh. lra. }
  destruct (half_plus _ V1 V3) as (W1 & W2 & W3). rewrite V2 in W2. auto.
Qed.
Lemma plaplace_inc mu sigma : exp_ok -> bfin mu -> bpos sigma -> inc01 (fun x => plaplace (N:=NB) x mu sigma false).
Proof.
  intros H Fm Ps.
  assert (E : forall x, bfin x -> plaplace (N:=NB) x mu sigma false = plaplace_compute (N:=NB) (bsub x mu) sigma).
  { intros x Fx. unfold plaplace, laplace_sanity3. change (laplace_sanity2 (N:=NB) mu sigma) with (norm_sanity2 (N:=NB) mu sigma). rewrite ls_sanity, (nan_nn F x) by (auto; now apply nn_fin). cbn [negb andb].
    unfold any_inf3. rewrite !inf_fin by (auto; apply Ps). cbn [orb]. change (eqb sigma (ofZ 0)) with (Beqb sigma (bofZ 0)). rewrite eq0_f by auto. reflexivity. }
  assert (Nz : forall x, nn x -> nn (bsub x mu)) by (intros; now apply bsub_r_nn).
  apply inc01_cap.
  - intros x Fx. rewrite E by auto. destruct (lap_val sigma _ H Ps (Nz x (nn_fin _ Fx))) as (A & _ & B). auto.
  - intros x y Fx Fy L. rewrite !E by auto. pose proof (Nz x (nn_fin _ Fx)) as N1. pose proof (Nz y (nn_fin _ Fy)) as N2.
    destruct (lap_val sigma _ H Ps N1) as (_ & -> & _), (lap_val sigma _ H Ps N2) as (_ & -> & _).
    apply rc_mono. apply Rplus_le_compat_l. apply rc_mono.
    assert (LL : ev (bsub x mu) <= ev (bsub y mu)) by (apply bsub_r; auto using in_dom, nn_fin; now rewrite !ev_fin).
    destruct (lap_u_ok sigma _ H Ps N1) as [_ B1], (lap_u_ok sigma _ H Ps N2) as [_ B2].
    destruct (sgn_cases _ N1) as [[-> S1]|[[-> S1]|[-> S1]]], (sgn_cases _ N2) as [[-> S2]|[[-> S2]|[-> S2]]]; try lra.
    + assert (ev (lap_u sigma (bsub x mu)) <= ev (lap_u sigma (bsub y mu))) by (apply lap_u_mono; auto; rewrite !Rabs_pos_eq; lra). lra.
    + assert (ev (lap_u sigma (bsub y mu)) <= ev (lap_u sigma (bsub x mu))) by (apply lap_u_mono; auto; rewrite !Rabs_left1; lra). lra.
  - unfold plaplace, laplace_sanity3. change (laplace_sanity2 (N:=NB) mu sigma) with (norm_sanity2 (N:=NB) mu sigma). rewrite ls_sanity by auto. cbn [negb andb Num.is_nan B64_Num bisnan pI].
    unfold any_inf3, plaplace_limit_vals, all_posinf2, all_neginf2. change (eqb sigma (ofZ 0)) with (Beqb sigma (bofZ 0)). rewrite eq0_f by auto.
    rewrite (posinf_fin F sigma), (posinf_fin F mu), (neginf_fin F mu) by (auto; apply Ps). reflexivity.
  - unfold plaplace, laplace_sanity3. change (laplace_sanity2 (N:=NB) mu sigma) with (norm_sanity2 (N:=NB) mu sigma). rewrite ls_sanity by auto. cbn [negb andb Num.is_nan B64_Num bisnan mI].
    unfold any_inf3, plaplace_limit_vals, all_posinf2, all_neginf2. change (eqb sigma (ofZ 0)) with (Beqb sigma (bofZ 0)). rewrite eq0_f by auto.
    rewrite (posinf_fin F sigma), (posinf_fin F mu), (neginf_fin F mu) by (auto; apply Ps). reflexivity.
Qed.

(** *** inverse gamma *)
Definition recip (x : b64) : b64 := if Beqb x (bofZ 0) then pI else if bisposinf x then bofZ 0 else bdiv (bofZ 1) x.
Lemma recip_nn x : nn x -> 0 <= ev x -> nn (recip x) /\ 0 <= ev (recip x).
Proof.
  intros N L. destruct z0 as [Z0 E0], (bofZ_R 1 ltac:(sm)) as [A1 F1]. unfold recip. pose proof maxR_pos as M.
  destruct (Beqb x (bofZ 0)) eqn:Q; [split; [reflexivity|unfold pI; rewrite ev_p; lra]|]. apply eqb_ev_f in Q; auto.
  destruct (bisposinf x) eqn:Q1; [rewrite E0; split; auto; lra|]. rewrite E0 in Q. split; [apply bdiv_l_nn; auto; lra|].
  apply bdiv_pos_nonneg; auto; lra.
Qed.
Lemma recip_mono x y : nn x -> nn y -> 0 <= ev x -> ev x <= ev y -> ev (recip y) <= ev (recip x).
Proof.
  intros Nx Ny L L'. destruct z0 as [Z0 E0], (bofZ_R 1 ltac:(sm)) as [A1 F1]. pose proof maxR_pos as M.
  destruct (recip_nn x Nx L) as [_ Px]. unfold recip in *.
  destruct (Beqb x (bofZ 0)) eqn:Q; [apply ev_bound|]. apply eqb_ev_f in Q; auto. rewrite E0 in Q.
  rewrite (proj2 (eqb_ev_f y (bofZ 0) Ny Z0)) by lra.
  destruct (bisposinf y) eqn:Q2; [rewrite E0; auto|].
  destruct (bisposinf x) eqn:Q1.
  - exfalso. destruct x as [s|s| |s m e B]; try discriminate Q1. destruct s; try discriminate Q1. rewrite ev_p in L'.
    assert (y = B754_infinity false) by (apply ev_max; auto; pose proof (ev_bound y); lra). subst y. discriminate Q2.
  - pose proof (ev_bound x). pose proof (ev_bound y). apply (bdiv_l (bofZ 1) (ev x)); [split; [auto|lra]|lra|split; [auto|lra]|split; [auto|lra]|lra].
Qed.
Lemma pinvgamma_inc shape rate : incgamma_ok F -> bfin shape -> 0 <= B2R shape -> bpos rate -> big_eps (bdiv (bofZ 1) rate) ->
  inc01 (fun x => pinvgamma (N:=NB) x shape rate false).
Proof.
  intros H Fsh Psh Pr Br. destruct z0 as [Z0 E0]. destruct (pgamma_inc F shape _ H Fsh Psh Br) as [G1 G2].
  assert (S : forall x, nn x -> pinvgamma (N:=NB) x shape rate false = if Bltb x (bofZ 0) then bofZ 0 else bsub (bofZ 1) (pgamma (N:=NB) (recip x) shape (bdiv (bofZ 1) rate) false)).
  { intros x N. unfold pinvgamma, invgamma_sanity3, invgamma_sanity2, any_nan2. rewrite (nan_nn F x), (nan_nn F shape), (nan_nn F rate) by (auto; apply nn_fin; auto; apply Pr).
    change (ltb shape (ofZ 0)) with (Bltb shape (bofZ 0)). change (ltb rate (ofZ 0)) with (Bltb rate (bofZ 0)). rewrite !lt0_f by (auto; try apply Pr; left; apply Pr).
    cbn [negb orb andb]. unfold pinvgamma_limit_vals. change (eqb rate (ofZ 0)) with (Beqb rate (bofZ 0)). rewrite eq0_f by auto. rewrite posinf_fin by apply Pr. reflexivity. }
  assert (V : forall x, nn x -> 0 <= ev x -> exists v, v = pgamma (N:=NB) (recip x) shape (bdiv (bofZ 1) rate) false /\ nn v /\ 0 <= ev v <= 1).
  { intros x N L. eexists. split; [reflexivity|]. apply G1. now apply recip_nn. }
  apply (inc01_thr _ 0).
  - intros x N L. rewrite S by auto. rewrite (proj2 (ltb_ev x (bofZ 0) N Z0)) by lra. auto.
  - intros x N L. rewrite S by auto. rewrite (proj2 (ltb_ev_f x (bofZ 0) N Z0)) by lra.
    destruct (V x N L) as (v & <- & A & B). destruct (one_minus v A B) as (U & _ & W). auto.
  - intros x y Nx Ny L L'. rewrite !S by auto. rewrite (proj2 (ltb_ev_f x (bofZ 0) Nx Z0)), (proj2 (ltb_ev_f y (bofZ 0) Ny Z0)) by lra.
    assert (Q : ev (pgamma (N:=NB) (recip y) shape (bdiv (bofZ 1) rate) false) <= ev (pgamma (N:=NB) (recip x) shape (bdiv (bofZ 1) rate) false)).
    { apply G2; try (apply recip_nn; auto; lra). now apply recip_mono. }
    destruct (V x Nx L) as (v & Ev & A & B), (V y Ny ltac:(lra)) as (v' & Ev' & A' & B'). rewrite <- Ev, <- Ev' in *.
    destruct (one_minus v A B) as (_ & -> & _), (one_minus v' A' B') as (_ & -> & _). apply rc_mono. lra.
Qed.

(** *** uniform *)
Lemma punif_inc a b : bfin a -> bfin b -> B2R a < B2R b -> bfin (bsub b a) -> inc01 (fun x => punif (N:=NB) x a b false).
Proof.
  intros Fa Fb Lab Fd. destruct z0 as [Z0 E0], z1 as [Z1 E1]. pose proof maxR_1 as M.
  assert (Pd : bpos (bsub b a)).
  { split; auto. rewrite <- ev_fin by auto. rewrite (proj2 (sub_ff b a Fb Fa)). unfold rc. pose proof (rnd_pos_diff a b Lab) as Q.
    unfold Rmax, Rmin. repeat destruct Rle_dec; lra. }
  assert (S : forall x, nn x -> punif (N:=NB) x a b false = if Bleb x a then bofZ 0 else if Bleb b x then bofZ 1 else bdiv (bsub x a) (bsub b a)).
  { intros x N. unfold punif, unif_sanity3, unif_sanity2, any_nan2. rewrite (nan_nn F x), (nan_nn F a), (nan_nn F b) by (auto; now apply nn_fin).
    change (leb b a) with (Bleb b a). rewrite (proj2 (bleb_R_f b a Fb Fa) Lab). cbn [orb negb andb].
    unfold all_inf2. rewrite inf_fin by auto. reflexivity. }
  assert (B : forall x, nn x -> (punif (N:=NB) x a b false = bofZ 0 /\ ev x <= B2R a) \/
     (punif (N:=NB) x a b false = bdiv (bsub x a) (bsub b a) /\ bfin x /\ B2R a < B2R x < B2R b /\ 0 <= ev (bdiv (bsub x a) (bsub b a)) <= 1) \/ (punif (N:=NB) x a b false = bofZ 1 /\ B2R b <= ev x)).
  { intros x N. rewrite S by auto. destruct (Bleb x a) eqn:Q; [left; split; auto; apply leb_ev in Q; rewrite <- (ev_fin a Fa); tauto|].
    apply (leb_ev_f x a N (nn_fin _ Fa)) in Q. rewrite (ev_fin a Fa) in Q. destruct (Bleb b x) eqn:Q1; [right; right; split; auto; apply leb_ev in Q1; rewrite <- (ev_fin b Fb); tauto|].
    apply (leb_ev_f b x (nn_fin _ Fb) N) in Q1. rewrite (ev_fin b Fb) in Q1. right; left. split; auto.
    pose proof (fin_lt _ Fa) as Ma. pose proof (fin_lt _ Fb) as Mb. rewrite ev_fin in Ma, Mb by auto.
    assert (Fx : bfin x) by (apply ev_lt_fin; auto; lra). rewrite ev_fin in Q, Q1 by auto. split; auto. split; [lra|].
    destruct (sub_ff x a Fx Fa) as [U1 U2]. assert (U3 : 0 <= ev (bsub x a) <= B2R (bsub b a)).
    { rewrite <- (ev_fin _ Fd), (proj2 (sub_ff b a Fb Fa)), U2. rewrite <- rc_0. split; apply rc_mono; lra. }
    pose proof (fin_lt _ Fd) as Md. rewrite ev_fin in Md by auto.
    destruct (fin_of _ 0 (B2R (bsub b a)) U1 U3 ltac:(lra) ltac:(lra)) as [U4 U5].
    destruct Pd as [_ Pd]. rewrite (proj2 (div_ff _ _ U4 Fd ltac:(lra))). apply (rc_range 0 1); try sm.
    assert (0 < / B2R (bsub b a)) by now apply Rinv_0_lt_compat. assert (B2R (bsub b a) * / B2R (bsub b a) = 1) by (apply Rinv_r; lra).
    unfold Rdiv. split; nra. }
  assert (NN : forall x, bfin x -> nn (bdiv (bsub x a) (bsub b a))) by (intros; apply bdiv_r_nn; auto; apply bsub_r_nn; auto; now apply nn_fin).
  split.
  - intros x N. destruct (B x N) as [[-> L]|[(-> & Fx & L & L')|[-> L]]]; rewrite ?E0, ?E1; try (split; auto; lra); split; auto.
  - intros x y Nx Ny L.
    destruct (B x Nx) as [[-> L1]|[(-> & Fx & L1 & L1')|[-> L1]]], (B y Ny) as [[-> L2]|[(-> & Fy & L2 & L2')|[-> L2]]]; rewrite ?E0, ?E1; rewrite ?(ev_fin x), ?(ev_fin y) in * by auto; try lra.
    apply bdiv_r; auto; try (apply in_dom; apply bsub_r_nn; auto). apply bsub_r; auto; try now apply in_dom. now rewrite !ev_fin.
Qed.

(** *** Bernoulli, Rademacher *)
Lemma prob_range p : Bleb (bofZ 0) p = true -> Bleb p (bofZ 1) = true -> bfin p /\ 0 <= B2R p <= 1.
Proof.
  intros A B. apply (le_Zl 0 p ltac:(sm)) in A. apply (le_Zr 1 p ltac:(sm)) in B. pose proof maxR_1.
  apply fin_of; [tauto|split; tauto|lra|lra].
Qed.
Lemma bern_ok p : Bleb (bofZ 0) p = true -> Bleb p (bofZ 1) = true -> bern_sanity (N:=NB) p = true.
Proof.
  intros A B. destruct (prob_range p A B) as [Fp Rp]. unfold bern_sanity. rewrite (nan_nn F p), inf_fin by (auto; now apply nn_fin).
  change (ltb p (ofZ 0)) with (Bltb p (bofZ 0)). change (ltb (ofZ 1) p) with (Bltb (bofZ 1) p). rewrite lt0_f by (auto; lra).
  destruct (bofZ_R 1 ltac:(sm)) as [A1 F1]. rewrite (proj2 (bltb_R_f (bofZ 1) p F1 Fp)) by lra. auto.
Qed.
Lemma steps3 (G : Z -> b64) (a b : Z) v : (a <= b)%Z -> (forall x, (x < a)%Z -> G x = bofZ 0) -> (forall x, (b <= x)%Z -> G x = bofZ 1) ->
  (forall x, (a <= x < b)%Z -> G x = v) -> nn v -> 0 <= ev v <= 1 -> b64_cdfZ G.
Proof.
  intros ab A B C N V. destruct z0 as [Z0 E0], z1 as [Z1 E1].
  assert (K : forall x, (G x = bofZ 0 /\ (x < a)%Z) \/ (G x = v /\ (a <= x < b)%Z) \/ (G x = bofZ 1 /\ (b <= x)%Z)).
  { intros x. destruct (Z_lt_le_dec x a); [left; auto|]. destruct (Z_lt_le_dec x b); [right; left|right; right]; auto. }
  split.
  - intros x. split; apply leb_ev; destruct (K x) as [[-> _]|[[-> _]|[-> _]]]; rewrite ?E0, ?E1; repeat split; auto; lra.
  - intros x y L. apply leb_ev. destruct (K x) as [[-> L1]|[[-> L1]|[-> L1]]], (K y) as [[-> L2]|[[-> L2]|[-> L2]]]; rewrite ?E0, ?E1; repeat split; auto; try lra; lia.
Qed.
Lemma pbern_cdfZ p : Bleb (bofZ 0) p = true -> Bleb p (bofZ 1) = true -> b64_cdfZ (fun x => pbern (N:=NB) x p false).
Proof.
  intros A B. pose proof (bern_ok p A B) as S. destruct (prob_range p A B) as [Fp Rp]. rewrite <- (ev_fin p Fp) in Rp.
  destruct (one_minus p (nn_fin _ Fp) Rp) as (U & _ & V).
  apply (steps3 _ 0 1 (bsub (bofZ 1) p)); try lia; auto; intros x L; unfold pbern; rewrite S; cbn [negb log_if]; unfold pbern_compute.
  - rewrite (proj2 (Z.ltb_lt x 0) L). auto.
  - rewrite (proj2 (Z.ltb_ge x 0)), (proj2 (Z.leb_le 1 x)) by lia. auto.
  - rewrite (proj2 (Z.ltb_ge x 0)), (proj2 (Z.leb_gt 1 x)) by lia. auto.
Qed.
Lemma pradem_cdfZ p : Bleb (bofZ 0) p = true -> Bleb p (bofZ 1) = true -> b64_cdfZ (fun x => pradem (N:=NB) x p false).
Proof.
  intros A B. pose proof (bern_ok p A B) as S. destruct (prob_range p A B) as [Fp Rp]. rewrite <- (ev_fin p Fp) in Rp.
  destruct (one_minus p (nn_fin _ Fp) Rp) as (U & _ & V).
  apply (steps3 _ (-1) 1 (bsub (bofZ 1) p)); try lia; auto; intros x L; unfold pradem; change (radem_sanity (N:=NB) p) with (bern_sanity (N:=NB) p); rewrite S; cbn [negb log_if]; unfold pradem_compute.
  - rewrite (proj2 (Z.ltb_lt x (-1)) L). auto.
  - rewrite (proj2 (Z.ltb_ge x (-1))), (proj2 (Z.leb_le 1 x)) by lia. auto.
  - rewrite (proj2 (Z.ltb_ge x (-1))), (proj2 (Z.leb_gt 1 x)) by lia. auto.
Qed.
End CDF3.
