(** Densities evaluated in binary64, third part. *)
From Coq Require Import ZArith QArith Reals Bool Lra Lia.
From Verif Require Import Num Sanity Prob Dens B64 B64R B64Ord SpecB64 B64Cdf SpecB64D B64Mag B64Dens B64Dens2.
From Flocq Require Import Core IEEE754.BinarySingleNaN Plus_error.
Local Open Scope R_scope.

(** a difference of two different doubles is not rounded to zero *)
Lemma sub_pos x y : bfin x -> bfin y -> B2R x < B2R y -> nn (bsub y x) /\ 0 < ev (bsub y x).
Proof.
  intros Fx Fy H. destruct (sub_ff y x Fy Fx) as [N E]. split; auto. rewrite E. pose proof maxR_pos as M.
  assert (Q : rnd (B2R y - B2R x) <> 0).
  { apply (round_plus_neq_0 radix2 fexp64 ZnearestE (B2R y) (- B2R x)).
    - apply generic_format_B2R.
    - apply generic_format_opp, generic_format_B2R.
    - lra. }
  assert (P : 0 <= rnd (B2R y - B2R x)) by (rewrite <- rnd_0; apply rnd_le; lra).
  unfold rc. apply Rlt_le_trans with (Rmin maxR (rnd (B2R y - B2R x))); [|apply Rmax_r]. apply Rmin_case; lra.
Qed.
Lemma lt_1000 : 1000 < maxR.
Proof. pose proof (bpow_lt radix2 10 1024 ltac:(lia)) as Q. fold maxR in Q. cbn in Q. lra. Qed.
Lemma ge0_ev c : Bleb (bofZ 0) c = true -> nn c /\ 0 <= ev c.
Proof. intros H. apply (le_Zl 0) in H; [|sm]. exact H. Qed.
Lemma lt0_false c : nn c -> 0 <= ev c -> Bltb c (bofZ 0) = false.
Proof. intros N H. destruct Z0 as [N0 E0]. apply ltb_ev_f; [auto|auto|lra]. Qed.
Lemma lt0_true c : nn c -> ev c < 0 -> Bltb c (bofZ 0) = true.
Proof. intros N H. destruct Z0 as [N0 E0]. apply ltb_ev; [auto|auto|lra]. Qed.
(** trichotomy on the first argument *)
Lemma sign_cases x : nn x -> ev x < 0 \/ bfin x /\ B2R x = 0 \/ bpos x \/ x = pI.
Proof.
  intros N. destruct (Rlt_le_dec (ev x) 0) as [L|L]; [now left|right].
  apply ge0_cases. apply (le_Zl 0); [sm|]. auto.
Qed.
Lemma pos_le_bmg c k : (-1074 <= k < 1024)%Z -> bpos c -> Bleb c (btwo k) = true -> bmg k c.
Proof.
  intros H [Fc P] L. destruct (btwo_R k H) as [F2 E2]. apply (bleb_R c (btwo k) Fc F2) in L. split; auto. rewrite Rabs_pos_eq by lra. lra.
Qed.
Lemma bpos_not_inf c (F : TF) : bpos c -> Num.is_posinf (Num:=B64_Num F) c = false.
Proof. intros [Fc _]. now apply posinf_fin. Qed.

(** a change by at most 2^10 does not overflow *)
Lemma rnd_near r : Rabs r <= maxR - bpow radix2 971 + bpow radix2 10 -> Rabs (rnd r) < maxR.
Proof.
  intros H. destruct (Rlt_le_dec (Rabs r) (bpow radix2 1023)) as [L|L].
  - assert (K : Rabs (rnd r) <= bpow radix2 1023); [|pose proof (bpow_max 1023 ltac:(lia)); lra].
    apply abs_round_le_generic; auto with typeclass_instances; [|lra]. apply generic_format_bpow. cbn. lia.
  - pose proof (error_le_half_ulp radix2 fexp64 (fun z => negb (Z.even z)) r) as E. fold (rnd r) in E.
    assert (U : ulp radix2 fexp64 r = bpow radix2 971).
    { pose proof (bpow_gt_0 radix2 1023) as P. rewrite ulp_neq_0 by (intros ->; rewrite Rabs_R0 in L; lra). unfold cexp. replace (mag radix2 r : Z) with 1024%Z; [reflexivity|].
      symmetry. apply mag_unique. split; [exact L|]. apply Rle_lt_trans with (1 := H). fold maxR. assert (bpow radix2 10 < bpow radix2 971) by (apply bpow_lt; lia). lra. }
    rewrite U in E. assert (Q : bpow radix2 10 < bpow radix2 970) by (apply bpow_lt; lia). assert (Q2 : bpow radix2 971 = 2 * bpow radix2 970) by (change 971%Z with (970 + 1)%Z; rewrite bpow_plus_1; reflexivity).
    assert (Rabs (rnd r) <= Rabs (rnd r - r) + Rabs r) by (replace (rnd r) with ((rnd r - r) + r) at 1 by ring; apply Rabs_triang). lra.
Qed.
Lemma fin_sub10 x y : bfin x -> bmg 10 y -> bfin (bsub x y) /\ ev (bsub x y) = rc (B2R x - B2R y).
Proof.
  intros Fx [Fy Ay]. destruct (sub_ff x y Fx Fy) as [N E]. split; auto.
  assert (Bx : Rabs (B2R x) <= maxR - bpow radix2 971).
  { pose proof (abs_B2R_le_emax_minus_prec 53 1024 ltac:(reflexivity) x) as Q. exact Q. }
  assert (K : Rabs (rnd (B2R x - B2R y)) < maxR).
  { apply rnd_near. unfold Rminus at 1. apply Rle_trans with (1 := Rabs_triang _ _). rewrite Rabs_Ropp. lra. }
  apply ev_lt_fin; auto. rewrite E, rc_in by auto. apply Rabs_def2 in K. lra.
Qed.

Section D3.
Variable F : TF.
Notation NB := (B64_Num F).

(** *** exponential *)
Lemma dexp_cases x rate lf : bpos rate -> nn x ->
  dexp (N:=NB) x rate lf = if Bltb x (bofZ 0) then log_zero_if (N:=NB) lf else if bisposinf x then bofZ 0 else exp_if (N:=NB) (bsub (t_log F rate) (bmul rate x)) (negb lf).
Proof.
  intros P Nx. pose proof P as [Fr Pr]. unfold dexp, exp_sanity2, exp_sanity1. rewrite (nan_nn F x Nx), (nan_nn F rate (nn_fin _ Fr)). cbn [negb andb].
  change (ltb rate (ofZ 0)) with (Bltb rate (bofZ 0)). rewrite lt0_f by (auto; lra). cbn [negb]. rewrite (posinf_fin F rate) by auto.
  change (ltb (ofZ 0) rate) with (Bltb (bofZ 0) rate). destruct (bpos_pos rate P) as [-> _]. reflexivity.
Qed.
Lemma dexp_okd rate : exp_all_ok F -> log_std F -> bpos rate -> forall lf x, nn x -> okd lf (dexp (N:=NB) x rate lf).
Proof.
  intros E L P lf x Nx. rewrite dexp_cases by auto. destruct (Bltb x (bofZ 0)); [apply okd_zero|].
  destruct (bisposinf x). { destruct Z0 as [N0 E0]. split; auto. lra. }
  apply okd_exp; auto. apply bsub_l_nn; [|now apply bmul_l_nn]. destruct (log_bmg F rate L P) as [M _]. now apply bmg_fin in M.
Qed.
Lemma dexp_uni rate : exp_all_ok F -> log_std F -> bpos rate -> b64_unimodal (bofZ 0) (fun x => dexp (N:=NB) x rate false).
Proof.
  intros E L P. destruct Z0 as [N0 E0]. pose proof maxR_pos as M. apply uni_spec; auto.
  - intros x N. now apply dexp_okd.
  - intros x y Nx Ny L1 L2. rewrite E0 in L2. destruct (Rlt_le_dec (ev x) 0) as [G|G].
    + rewrite (dexp_cases x) by auto. rewrite lt0_true by auto. change (ev (bofZ 0) <= ev (dexp (N:=NB) y rate false)). rewrite E0. now apply dexp_okd.
    + rewrite !dexp_cases by auto. rewrite !lt0_false by (auto; lra). 
      assert (Q : forall z, nn z -> 0 <= ev z <= 0 -> bisposinf z = false) by (intros z Nz Hz; destruct (nn_cases z Nz) as [Fz | [-> | ->]]; [now apply (posinf_fin F)|cbn [ev] in Hz; lra|reflexivity]).
      rewrite !Q by (auto; lra). apply exp_if_mono; auto; try (apply bsub_l_nn; [destruct (log_bmg F rate L P) as [M' _]; now apply bmg_fin in M'|now apply bmul_l_nn]).
      apply bsub_l; [destruct (log_bmg F rate L P) as [M' _]; now apply bmg_fin in M'|apply in_dom; now apply bmul_l_nn|apply in_dom; now apply bmul_l_nn|].
      apply bmul_l; auto; try now apply in_dom. lra.
  - intros x y Nx Ny L1 L2. rewrite E0 in L1. destruct (bisposinf y) eqn:I.
    + rewrite (dexp_cases y), lt0_false, I by (auto; lra). rewrite E0. now apply dexp_okd.
    + rewrite !dexp_cases by auto. rewrite !lt0_false, I by (auto; lra).
      assert (I' : bisposinf x = false).
      { destruct (nn_cases y Ny) as [Fy | [-> | ->]]; [|discriminate I|cbn [ev] in L2; lra]. pose proof (fin_lt y Fy). destruct (nn_cases x Nx) as [Fx | [-> | ->]]; [now apply (posinf_fin F)|cbn [ev] in L2; lra|reflexivity]. }
      rewrite I'. apply exp_if_mono; auto; try (apply bsub_l_nn; [destruct (log_bmg F rate L P) as [M' _]; now apply bmg_fin in M'|now apply bmul_l_nn]).
      apply bsub_l; [destruct (log_bmg F rate L P) as [M' _]; now apply bmg_fin in M'|apply in_dom; now apply bmul_l_nn|apply in_dom; now apply bmul_l_nn|].
      apply bmul_l; auto; now apply in_dom.
Qed.

(** *** uniform *)
Lemma dunif_okd a b : log_std F -> bfin a -> bfin b -> B2R a < B2R b -> forall lf x, nn x -> okd lf (dunif (N:=NB) x a b lf).
Proof.
  intros L Fa Fb H lf x Nx. unfold dunif, unif_sanity3, unif_sanity2, any_nan2. rewrite (nan_nn F x Nx), (nan_nn F a (nn_fin _ Fa)), (nan_nn F b (nn_fin _ Fb)). cbn [negb andb orb].
  change (leb b a) with (Bleb b a). rewrite (proj2 (bleb_R_f b a Fb Fa) H). cbn [negb]. unfold any_inf2. rewrite !inf_fin by auto. cbn [orb].
  destruct (_ || _); [apply okd_zero|]. destruct (sub_pos a b Fa Fb H) as [N P]. unfold dunif_log_check. destruct lf.
  - split; [|discriminate]. change (nn (Bopp (t_log F (bsub b a)))). apply opp_ev. apply log_nn; auto. lra.
  - destruct (bofZ_R 1 ltac:(sm)) as [B1 F1]. change (okd false (bdiv (bofZ 1) (bsub b a))). split; [now apply bdiv_l_nn|]. intros _. apply bdiv_pos_nonneg; auto. lra.
Qed.

(** *** log-normal *)
Lemma dlnorm_okd mu sigma : exp_all_ok F -> log_std F -> small_const (t_LOG_2PI F) -> bfin mu -> Bleb (bofZ 0) sigma = true ->
  forall lf x, nn x -> okd lf (dlnorm (N:=NB) x mu sigma lf).
Proof.
  intros E L S Fm Hs lf x Nx. unfold dlnorm. rewrite lnorm_norm3. unfold norm_sanity3. rewrite ls_sanity', (nan_nn F x) by auto. cbn [negb andb].
  change (ltb x (ofZ 0)) with (Bltb x (bofZ 0)). change (log x) with (t_log F x). destruct (sign_cases x Nx) as [G | G]; [rewrite lt0_true by auto; apply okd_zero|].
  assert (G0 : 0 <= ev x) by (destruct G as [[A B]|[[A B]| ->]]; [rewrite ev_fin by auto; lra|rewrite ev_fin by auto; lra|cbn [pI ev]; pose proof maxR_pos; lra]).
  rewrite lt0_false by auto.
  assert (K : any_inf3 (N:=NB) (t_log F x) mu sigma || eqb (Num:=NB) sigma (ofZ (Num:=NB) 0) = true \/ bpos x /\ bpos sigma).
  { destruct (ge0_cases sigma Hs) as [C | [C | C]]; [left; apply sig_any; auto| |left; apply sig_any; auto].
    destruct G as [[A B]|[G| ->]]; [left; apply inf_any; right; now apply log_zero|now right|left; apply inf_any; left; now apply log_inf]. }
  destruct K as [K|[Px Ps]].
  - match goal with |- context [if ?c then _ else _] => change c with (any_inf3 (N:=NB) (t_log F x) mu sigma || eqb (Num:=NB) sigma (ofZ (Num:=NB) 0)) end.
    rewrite K. unfold dlnorm_limit_vals, all_posinf2, all_neginf2. rewrite (posinf_fin F mu), (neginf_fin F mu), !andb_false_r by auto.
    destruct (Num.is_posinf (Num:=NB) sigma); [now apply okd_log_0|]. destruct (eqb (Num:=NB) sigma (ofZ (Num:=NB) 0)); now apply okd_log_0.
  - destruct (log_bmg F x L Px) as [M _]. pose proof (bmg_fin _ _ M) as Fl. pose proof (bmg_nn _ _ M) as Nl.
    match goal with |- context [if ?c then _ else _] => change c with (any_inf3 (N:=NB) (t_log F x) mu sigma || eqb (Num:=NB) sigma (ofZ (Num:=NB) 0)) end.
    unfold any_inf3. rewrite !inf_fin by (auto; apply Ps). change (eqb (Num:=NB) sigma (ofZ (Num:=NB) 0)) with (Beqb sigma (bofZ 0)). rewrite eq0_f by auto. cbn [orb].
    unfold dlnorm_log_check. destruct (dnorm_okd F mu sigma E L S Fm Hs lf (t_log F x) Nl) as [A B]. destruct lf.
    + split; [|discriminate]. change (nn (bsub (dnorm (N:=NB) (t_log F x) mu sigma true) (t_log F x))). now apply bsub_r_nn.
    + change (okd false (bdiv (dnorm (N:=NB) (t_log F x) mu sigma false) x)). split; [now apply bdiv_r_nn|]. intros _. apply div_ge0; auto.
Qed.

(** *** logistic: when the standardised argument does not overflow to minus infinity *)
Lemma dlogis_okd mu sigma lf x : exp_all_ok F -> log_std F -> bfin mu -> bpos sigma -> nn x -> (bfin x -> bdiv (bsub x mu) sigma <> mI) ->
  okd lf (dlogis (N:=NB) x mu sigma lf).
Proof.
  intros E L Fm P Nx Hz. unfold dlogis. rewrite logis_norm3. unfold norm_sanity3. rewrite (ls_sanity F), (nan_nn F x) by auto. cbn [negb andb]. pose proof P as [Fs Ps].
  destruct (nn_cases x Nx) as [Fx | Hx].
  - unfold any_inf3. rewrite !inf_fin by auto. cbn [orb]. apply okd_exp; auto. specialize (Hz Fx).
    change (dlogis_log_compute (N:=NB) _ sigma) with (bsub (bsub (Bopp (bdiv (bsub x mu) sigma)) (t_log F sigma)) (bmul (bofZ 2) (t_log F (badd (bofZ 1) (t_exp F (Bopp (bdiv (bsub x mu) sigma))))))).
    destruct (z_mono mu sigma Fm P) as [Nz _]. specialize (Nz x Nx). revert Nz Hz. generalize (bdiv (bsub x mu) sigma). intros z Nz Hz.
    destruct (opp_ev z Nz) as [No Eo]. destruct (log_bmg F sigma L P) as [Ml _].
    assert (A : nn (badd (bofZ 1) (t_exp F (Bopp z))) /\ 1 <= ev (badd (bofZ 1) (t_exp F (Bopp z)))).
    { destruct (exp_nn F _ E No) as [Ne Pe]. destruct (bofZ_R 1 ltac:(sm)) as [B1 F1]. split; [now apply badd_l_nn|].
      destruct Z0 as [N0 E0]. pose proof (badd_l (bofZ 1) F1 (bofZ 0) _ (in_dom _ N0) (in_dom _ Ne)) as Q. cbv beta in Q. rewrite E0 in Q. specialize (Q Pe).
      destruct (bofZ_R 0 ltac:(sm)) as [B0 F0]. rewrite (proj2 (add_ff _ _ F1 F0)), B1, B0, Rplus_0_r, (rc_Z 1) in Q by sm. exact Q. }
    destruct A as [Na Pa]. destruct (log_ge F _ L Na ltac:(lra)) as [Nl Pl]. pose proof (bmg_fin _ _ Ml) as Fl. pose proof lt_1000 as K.
    assert (V : nn (bmul (bofZ 2) (t_log F (badd (bofZ 1) (t_exp F (Bopp z))))) /\ -2000 <= ev (bmul (bofZ 2) (t_log F (badd (bofZ 1) (t_exp F (Bopp z)))))).
    { split; [apply bmul_l_nn; auto; apply bpos_Z; lia|]. destruct (ev_Z (-1000) ltac:(sm)) as [Nm Em].
      pose proof (bmul_l (bofZ 2) ltac:(apply bpos_Z; lia) (bofZ (-1000)) _ (in_dom _ Nm) (in_dom _ Nl) ltac:(lra)) as Q. cbv beta in Q.
      destruct (bofZ_R 2 ltac:(sm)) as [B2' F2], (bofZ_R (-1000) ltac:(sm)) as [B3 F3]. rewrite (proj2 (mul_ff _ _ F2 F3)), B2', B3, <- mult_IZR, (rc_Z (2 * -1000)) in Q by sm. change (2 * -1000)%Z with (-2000)%Z in Q. exact Q. }
    destruct V as [Nv Pv]. assert (2000 < maxR) by (pose proof (bpow_lt radix2 11 1024 ltac:(lia)) as Q; fold maxR in Q; cbn in Q; lra).
    destruct (nn_cases z Nz) as [Fz | [-> | ->]]; [| |now elim Hz].
    + destruct (fin_sub10 (Bopp z) (t_log F sigma)) as [Ff _]; auto.
      { apply ev_lt_fin; auto. pose proof (fin_lt z Fz). lra. }
      now apply bsub_l_nn.
    + cbn [Bopp negb]. rewrite subr_inf by auto. apply sub_nn; [reflexivity|auto|cbn [ev]; lra|cbn [Bopp negb] in Pv; lra].
  - assert (I : is_inf (N:=NB) x = true) by (destruct Hx; subst; reflexivity). unfold any_inf3. rewrite I. cbn [orb].
    unfold dlogis_limit_vals, all_posinf2, all_neginf2. change (eqb (Num:=NB) sigma (ofZ (Num:=NB) 0)) with (Beqb sigma (bofZ 0)). rewrite eq0_f by auto.
    rewrite (posinf_fin F sigma), (posinf_fin F mu), (neginf_fin F mu) by auto. rewrite !andb_false_r. now apply okd_log_0.
Qed.
End D3.
