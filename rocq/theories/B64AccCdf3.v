(** Accuracy of the distribution functions in binary64: Weibull, gamma, chi-squared, inverse gamma, beta,
    log-normal, Bernoulli, Rademacher and Poisson. *)
From Coq Require Import ZArith QArith Reals Bool Lra Lia.
From Verif Require Import RealElem RealAcc Erf GammaFn BetaFn NormR Spec SpecSF.
From Verif Require FamR Discrete.
From Verif Require Import Num Sanity Prob B64 B64R B64Ord SpecB64 SpecAcc B64Cdf B64Cdf2 B64Cdf3 B64Acc B64AccCdf B64AccCdf2.
From Flocq Require Import Core IEEE754.BinarySingleNaN.
Local Open Scope R_scope.

Lemma tiny_huge : 8 * tiny <= ulp1 * / huge.
Proof.
  unfold tiny, ulp1, huge. rewrite <- bpow_opp, <- bpow_plus. change 8 with (bpow radix2 3). rewrite <- bpow_plus. apply bpow_le. lia.
Qed.
Lemma quot_near x s : bfin x -> bpos s -> / huge <= B2R x / B2R s <= huge -> near (2 * ulp1) 0 (bdiv x s) (B2R x / B2R s) /\ 0 < B2R (bdiv x s).
Proof.
  intros Fx [Fs Ps] [H1 H2]. pose proof huge_1. pose proof ulp1_val. pose proof tiny_huge. pose proof tiny_pos.
  assert (P : 0 < / huge) by (apply Rinv_0_lt_compat; lra).
  assert (N : near (2 * ulp1) 0 (bdiv x s) (B2R x / B2R s)).
  { replace (2 * ulp1) with (ulp1 + ulp1) by ring. apply near_rel with (h := tiny); [|lra|rewrite Rabs_pos_eq by lra; nra].
    apply near_div0; auto; [lra|]. rewrite Rabs_pos_eq; lra. }
  split; auto. destruct N as (_ & t & u & _ & S & E). apply abs_le0 in S. subst u. rewrite E, Rplus_0_r. apply Rmult_lt_0_compat; [lra|apply exp_pos].
Qed.
Lemma quot_exp x s : bfin x -> bpos s -> / huge <= B2R x / B2R s <= huge -> exists t, Rabs t <= 2 * ulp1 /\ B2R (bdiv x s) = B2R x / B2R s * exp t.
Proof.
  intros Fx Ps H. destruct (quot_near x s Fx Ps H) as [(_ & t & u & T & S & E) _]. exists t. apply abs_le0 in S. subst u. split; auto. lra.
Qed.
Lemma Rpower_exp r t c : 0 < r -> Rpower (r * exp t) c = Rpower r c * exp (c * t).
Proof. intros H. unfold Rpower. rewrite ln_mult, ln_exp by (auto; apply exp_pos). rewrite Rmult_plus_distr_l, exp_plus. reflexivity. Qed.
Lemma half_dof d : bfin d -> / huge <= B2R d <= huge -> finite (bdiv d (bofZ 2)) /\ B2R (bdiv d (bofZ 2)) = B2R d / 2.
Proof.
  intros Fd [H1 H2]. destruct (bofZ_R 2 ltac:(sm)) as [A2 F2]. pose proof huge_1. assert (P : 0 < / huge) by (apply Rinv_0_lt_compat; lra).
  destruct (bdiv_R d (bofZ 2) Fd) as [E G]; [rewrite A2; lra|apply rnd_bound; rewrite A2, Rabs_pos_eq; lra|].
  split; auto. rewrite E, A2. apply rnd_fmt.
  destruct (FLT_format_generic radix2 (-1074) 53 (B2R d) (generic_format_B2R 53 1024 d)) as [[m k] Ed Hm Hk]. cbn in Hm, Hk.
  assert (K : (-1053 <= k)%Z).
  { apply Z.nlt_ge. intros K. unfold huge in H1. rewrite <- bpow_opp in H1. rewrite Ed in H1. unfold F2R in H1. cbn [Fnum Fexp] in H1.
    assert (M : IZR m <= bpow radix2 53) by (change (bpow radix2 53) with (IZR (2 ^ 53)); apply IZR_le; lia).
    pose proof (bpow_gt_0 radix2 k). assert (L : bpow radix2 53 * bpow radix2 k < bpow radix2 (- (1000))) by (rewrite <- bpow_plus; apply bpow_lt; lia). nra. }
  apply generic_format_FLT. apply FLT_spec with (Float radix2 m (k - 1)); cbn [Fnum Fexp]; [|exact Hm|cbn in Hk |- *; unfold SpecFloat.emin; lia].
  rewrite Ed. unfold F2R. cbn [Fnum Fexp]. unfold Z.sub. rewrite bpow_plus. cbn. lra.
Qed.
Lemma bpos2 : bpos (bofZ 2). Proof. destruct (bofZ_R 2 ltac:(sm)) as [A2 F2]. split; auto. lra. Qed.
Lemma huge_inv : 0 < / huge <= / 1000.
Proof. pose proof huge_1. split; [apply Rinv_0_lt_compat; lra|apply Rinv_le_contravar; lra]. Qed.
Lemma eps_R : B2R beps = ulp1 /\ bfin beps.
Proof. split; [|reflexivity]. unfold ulp1. vm_compute. lra. Qed.

Section A3.
Variable F : TF.
Notation NB := (B64_Num F).
Variable e : R.
Hypothesis He : unit_ok e.
Local Notation e_pos := (e_pos e He).

(** *** Weibull *)
Lemma pweibull_fin x shape scale : bfin x -> big_eps x -> big_eps shape -> big_eps scale ->
  pweibull (N:=NB) x shape scale false = Bopp (t_expm1 F (Bopp (t_pow F (bdiv x scale) shape))).
Proof.
  intros Fx Bx Bsh Bsc. destruct (big_eps_pos _ Bx) as (Px & Px' & Ex), (big_eps_pos _ Bsh) as (Psh & Psh' & Esh), (big_eps_pos _ Bsc) as (Psc & Psc' & Esc).
  unfold pweibull, weibull_sanity3, weibull_sanity2, any_nan2. rewrite (nan_nn F x), (nan_nn F shape), (nan_nn F scale) by (auto; apply nn_fin; auto; apply Psh' || apply Psc').
  cbn [orb negb andb]. rewrite (proj2 (eps_lt_f F shape (nn_fin _ (proj1 Psh'))) Esh), (proj2 (eps_lt_f F scale (nn_fin _ (proj1 Psc'))) Esc).
  cbn [orb negb andb]. rewrite (proj2 (eps_lt_f F x (nn_fin _ Fx)) Ex). unfold any_inf3. rewrite !inf_fin by (auto; apply Psh' || apply Psc'). reflexivity.
Qed.
Lemma pweibull_acc x shape scale : expm1_acc F e -> pow_acc F e -> pow_sign F -> big_eps x -> big_eps shape -> big_eps scale ->
  / huge <= B2R x / B2R scale <= huge -> Rpower (B2R x / B2R scale) (B2R shape) <= huge / 2 -> B2R shape <= 1000000000 ->
  near (2 * e + 2 * B2R shape * ulp1) (4 * tiny) (pweibull (N:=NB) x shape scale false) (weibull_cdf (B2R shape) (B2R scale) (B2R x)).
Proof.
  intros HF HP HS Bx Bsh Bsc Q HR Hs. destruct (big_eps_pos _ Bx) as (_ & [Fx Px] & _), (big_eps_pos _ Bsh) as (_ & [Fsh Psh] & _), (big_eps_pos _ Bsc) as (_ & Psc & _).
  rewrite pweibull_fin by auto. pose proof e_pos as (E1 & E2 & E3). pose proof tiny_pos. pose proof He as [_ Hb]. pose proof huge_1. pose proof ulp1_val as U. pose proof huge_inv.
  destruct (quot_near x scale Fx Psc Q) as [[Fq _] Pq]. destruct (quot_exp x scale Fx Psc Q) as (t & T & E). set (r := B2R x / B2R scale) in *. set (c := B2R shape) in *.
  assert (CT : Rabs (c * t) <= 2 * c * ulp1) by (rewrite Rabs_mult, (Rabs_pos_eq c) by lra; nra).
  assert (CU : 2 * c * ulp1 <= / 1000) by (rewrite U; nra).
  assert (CP : 0 <= 2 * c * ulp1) by (eapply Rle_trans; [apply Rabs_pos|exact CT]).
  assert (R0 : 0 < Rpower r c) by (unfold Rpower; apply exp_pos).
  assert (EP : Rpower (B2R (bdiv x scale)) c = Rpower r c * exp (c * t)) by (rewrite E; apply Rpower_exp; lra).
  pose proof (exp_2 (c * t) _ CT ltac:(lra)) as X2.
  assert (N1 : near (e + 2 * c * ulp1) tiny (t_pow F (bdiv x scale) shape) (Rpower r c)).
  { destruct (HP shape Fsh (bdiv x scale) Fq) as (Fw & t2 & s2 & T2 & S2 & W).
    { split; [auto|]. fold c. rewrite EP. nra. }
    split; auto. fold c in W. rewrite EP in W. exists (c * t + t2), s2. split; [|split; auto].
    - rewrite Rplus_comm. now apply abs_sum.
    - rewrite W, exp_plus. ring. }
  pose proof (near_opp _ _ _ _ N1) as N2. pose proof (HS (bdiv x scale) shape Fq Fsh Pq) as Sg.
  unfold weibull_cdf. fold r. eapply near_le; [apply (expm1_near F e He _ _ _ _ HF N2); try lra|lra|lra].
  rewrite B2R_Bopp. lra.
Qed.

(** *** gamma *)
Lemma pgamma_fin x shape scale : bfin x -> big_eps x -> bpos shape -> big_eps scale ->
  pgamma (N:=NB) x shape scale false = t_incgamma F shape (bdiv x scale).
Proof.
  intros Fx Bx [Fsh Psh] Bsc. destruct (big_eps_pos _ Bx) as (Px & Px' & Ex), (big_eps_pos _ Bsc) as (Psc & Psc' & Esc).
  unfold pgamma, gamma_sanity3, gamma_sanity2, any_nan2. rewrite (nan_nn F x), (nan_nn F shape), (nan_nn F scale) by (auto; apply nn_fin; auto; apply Psc').
  cbn [orb negb andb]. change (ltb shape (ofZ 0)) with (Bltb shape (bofZ 0)). rewrite lt0_f by (auto; lra).
  rewrite (proj2 (eps_lt_f F scale (nn_fin _ (proj1 Psc'))) Esc). cbn [orb negb andb].
  unfold all_posinf2. rewrite (posinf_fin F scale) by apply Psc'. rewrite andb_false_r.
  rewrite (proj2 (eps_lt_f F x (nn_fin _ Fx)) Ex). unfold any_posinf3. rewrite !posinf_fin by (auto; apply Psc').
  change (eqb shape (ofZ 0)) with (Beqb shape (bofZ 0)). rewrite eq0_f by (split; auto). reflexivity.
Qed.
Lemma pgamma_acc x shape scale : incgamma_acc F e -> big_eps x -> bpos shape -> big_eps scale ->
  / huge <= B2R x / B2R scale <= huge ->
  near (e + 2 * B2R shape * ulp1) tiny (pgamma (N:=NB) x shape scale false) (gamma_cdf (B2R shape) (B2R scale) (B2R x)).
Proof.
  intros HF Bx Psh Bsc Q. destruct (big_eps_pos _ Bx) as (_ & [Fx Px] & _), (big_eps_pos _ Bsc) as (_ & Psc & _). pose proof Psh as [Fsh Psh'].
  rewrite pgamma_fin by auto. destruct (quot_near x scale Fx Psc Q) as [[Fq _] Pq]. destruct (quot_exp x scale Fx Psc Q) as (t & T & E).
  pose proof huge_inv. destruct (HF shape Fsh Psh' (bdiv x scale) Fq Pq) as (Fw & t2 & s2 & T2 & S2 & W).
  destruct (cond_PG (B2R shape) (B2R x / B2R scale) t Psh' ltac:(lra)) as (u & Hu & EU).
  split; auto. exists (u + t2), s2. split; [|split; auto].
  - rewrite (Rplus_comm e). apply abs_sum; auto. eapply Rle_trans; [exact Hu|]. nra.
  - unfold gamma_cdf. rewrite W, E, EU, exp_plus. ring.
Qed.

(** *** chi-squared *)
Lemma pchisq_fin x dof : bfin x -> big_eps x -> bpos dof ->
  pchisq (N:=NB) x dof false = t_incgamma F (bdiv dof (bofZ 2)) (bdiv x (bofZ 2)).
Proof.
  intros Fx Bx [Fd Pd]. destruct (big_eps_pos _ Bx) as (Px & Px' & Ex).
  unfold pchisq, chisq_sanity2, chisq_sanity1. rewrite (nan_nn F x), (nan_nn F dof) by (auto; apply nn_fin; auto).
  change (ltb dof (ofZ 0)) with (Bltb dof (bofZ 0)). rewrite lt0_f by (auto; lra). cbn [negb andb].
  rewrite (proj2 (eps_lt_f F x (nn_fin _ Fx)) Ex). change (eqb dof (ofZ 0)) with (Beqb dof (bofZ 0)). rewrite eq0_f by (split; auto). rewrite !posinf_fin by auto. reflexivity.
Qed.
Lemma big_eps_R x : big_eps x -> bfin x /\ ulp1 <= B2R x.
Proof.
  intros B. destruct (big_eps_pos _ B) as (_ & [Fx _] & Ex). split; auto. destruct eps_R as [E Fe]. rewrite !ev_fin, E in Ex by auto. auto.
Qed.
Lemma pchisq_acc x dof : incgamma_acc F e -> big_eps x -> bfin dof -> / huge <= B2R dof <= huge -> B2R x <= huge ->
  near e tiny (pchisq (N:=NB) x dof false) (chisq_cdf (B2R dof) (B2R x)).
Proof.
  intros HF Bx Fd Hd Hx. destruct (big_eps_R x Bx) as [Fx Ex]. pose proof huge_inv. pose proof ulp1_val.
  assert (UH : / huge <= ulp1). { unfold huge, ulp1. rewrite <- bpow_opp. apply bpow_le. lia. }
  rewrite pchisq_fin by (auto; split; auto; lra).
  destruct (half_dof dof Fd Hd) as [F1 V1]. destruct (half_dof x Fx ltac:(lra)) as [F2 V2].
  unfold chisq_cdf. rewrite <- V1, <- V2. apply HF; auto; [rewrite V1|rewrite V2]; lra.
Qed.

(** *** inverse gamma: one minus the distribution function of the gamma at the reciprocals *)
Lemma pinvgamma_fin x shape rate : bpos x -> bpos shape -> bpos rate -> big_eps (bdiv (bofZ 1) x) -> big_eps (bdiv (bofZ 1) rate) ->
  pinvgamma (N:=NB) x shape rate false = bsub (bofZ 1) (t_incgamma F shape (bdiv (bdiv (bofZ 1) x) (bdiv (bofZ 1) rate))).
Proof.
  intros Px Psh Pr B1 B2. unfold pinvgamma, invgamma_sanity3, invgamma_sanity2, any_nan2.
  rewrite (nan_nn F x), (nan_nn F shape), (nan_nn F rate) by (auto; apply nn_fin; apply Px || apply Psh || apply Pr).
  change (ltb shape (ofZ 0)) with (Bltb shape (bofZ 0)). change (ltb rate (ofZ 0)) with (Bltb rate (bofZ 0)). change (ltb x (ofZ 0)) with (Bltb x (bofZ 0)).
  rewrite !lt0_f by (try apply Px; try apply Psh; try apply Pr; left; apply Px || apply Psh || apply Pr). cbn [orb negb andb].
  change (eqb x (ofZ 0)) with (Beqb x (bofZ 0)). rewrite eq0_f by auto. rewrite posinf_fin by apply Px.
  unfold pinvgamma_limit_vals. change (eqb rate (ofZ 0)) with (Beqb rate (bofZ 0)). rewrite eq0_f by auto. rewrite posinf_fin by apply Pr.
  unfold pinvgamma_compute. cbn [log_if]. change (div (ofZ 1) x) with (bdiv (bofZ 1) x). change (div (ofZ 1) rate) with (bdiv (bofZ 1) rate).
  rewrite pgamma_fin; auto. apply (big_eps_R _ B1).
Qed.

(** *** beta *)
Lemma pbeta_acc x a b : incbeta_acc F e -> bfin x -> 0 < B2R x < 1 -> bpos a -> bpos b ->
  near e tiny (pbeta (N:=NB) x a b false) (beta_cdf (B2R a) (B2R b) (B2R x)).
Proof.
  intros HF Fx Hx Pa Pb.
  assert (S : pbeta (N:=NB) x a b false = t_incbeta F a b x).
  { unfold pbeta, beta_sanity3, beta_sanity2, any_nan2. rewrite (nan_nn F x), (nan_nn F a), (nan_nn F b) by (auto; apply nn_fin; auto; apply Pa || apply Pb).
    change (ltb a (ofZ 0)) with (Bltb a (bofZ 0)). change (ltb b (ofZ 0)) with (Bltb b (bofZ 0)). change (eqb a (ofZ 0)) with (Beqb a (bofZ 0)). change (eqb b (ofZ 0)) with (Beqb b (bofZ 0)).
    rewrite !lt0_f by (try apply Pa; try apply Pb; left; apply Pa || apply Pb).
    rewrite !eq0_f by auto. unfold any_posinf2. rewrite !posinf_fin by (apply Pa || apply Pb). cbn [orb negb andb].
    destruct (bofZ_R 0 ltac:(sm)) as [Z0 F0], (bofZ_R 1 ltac:(sm)) as [Z1 F1].
    change (leb x (ofZ 0)) with (Bleb x (bofZ 0)). change (leb (ofZ 1) x) with (Bleb (bofZ 1) x).
    rewrite (proj2 (bleb_R_f x (bofZ 0) Fx F0)), (proj2 (bleb_R_f (bofZ 1) x F1 Fx)) by lra. reflexivity. }
  rewrite S. unfold beta_cdf. destruct Pa, Pb. apply HF; auto.
Qed.

(** *** log-normal *)
Lemma ln_mono' a b : 0 < a -> a <= b -> ln a <= ln b.
Proof. intros P [H | ->]; [left; now apply ln_increasing|lra]. Qed.
Lemma ln_double x : big_eps x -> Rabs (ln (B2R x)) <= 1024.
Proof.
  intros B. destruct (big_eps_R x B) as [Fx Ex]. pose proof ulp1_val. pose proof (fin_lt _ Fx) as L. unfold maxR in L. destruct L as [_ L]. rewrite ev_fin in L by auto.
  assert (L2 : ln 2 <= 1). { rewrite <- (ln_exp 1). apply ln_mono'; [lra|]. pose proof (exp_ineq1_le 1). lra. }
  assert (L0 : 0 <= ln 2) by (rewrite <- ln_1; apply ln_mono'; lra).
  assert (P : forall k, ln (bpow radix2 k) = IZR k * ln 2).
  { intros k. rewrite bpow_exp. cbn [radix_val radix2]. now rewrite ln_exp. }
  assert (A1 : ln ulp1 <= ln (B2R x)) by (apply ln_mono'; [rewrite H; lra|auto]). unfold ulp1 in A1. rewrite P in A1.
  assert (A2 : ln (B2R x) <= ln (bpow radix2 1024)) by (apply ln_mono'; lra). rewrite P in A2. apply Rabs_le. lra.
Qed.
Lemma lnorm_lip mu sigma a s : 0 < sigma -> Rabs (norm_cdf mu sigma (a + s) - norm_cdf mu sigma a) <= / 2 * (Rabs s / sigma).
Proof.
  intros Ps. unfold norm_cdf. pose proof sqrt2_pos as Q. assert (Q1 : 6 / 5 <= R_sqrt.sqrt 2).
  { apply Rsqr_incr_0_var; [|lra]. rewrite Rsqr_sqrt by lra. unfold Rsqr. lra. }
  replace ((a + s - mu) / (R_sqrt.sqrt 2 * sigma)) with ((a - mu) / (R_sqrt.sqrt 2 * sigma) * exp 0 + s / (R_sqrt.sqrt 2 * sigma)) by (rewrite exp_0; field; split; lra).
  pose proof (cond_erf ((a - mu) / (R_sqrt.sqrt 2 * sigma)) 0 (s / (R_sqrt.sqrt 2 * sigma))) as C. rewrite Rabs_R0 in C.
  match goal with |- Rabs (1 / 2 * (1 + ?p) - 1 / 2 * (1 + ?q)) <= _ => replace (1 / 2 * (1 + p) - 1 / 2 * (1 + q)) with (/ 2 * (p - q)) by lra end.
  rewrite Rabs_mult, (Rabs_pos_eq (/ 2)) by lra. apply Rmult_le_compat_l; [lra|].
  assert (D : Rabs (s / (R_sqrt.sqrt 2 * sigma)) = Rabs s / sigma * / R_sqrt.sqrt 2).
  { unfold Rdiv. rewrite Rabs_mult, Rabs_inv, (Rabs_pos_eq (_ * _)) by (apply Rmult_le_pos; lra). field. split; lra. }
  rewrite D in C. assert (I1 : / R_sqrt.sqrt 2 <= 5 / 6). { replace (5 / 6) with (/ (6 / 5)) by field. apply Rinv_le_contravar; lra. }
  assert (0 <= Rabs s / sigma) by (apply Rle_mult_inv_pos; [apply Rabs_pos|auto]). nra.
Qed.
Lemma plnorm_acc x mu sigma : const_acc e (t_SQRT_2 F) (R_sqrt.sqrt 2) -> erf_acc F e -> log_acc F e -> big_eps x -> bfin mu -> bpos sigma ->
  Rabs (B2R mu) <= huge / 2 -> (Rabs (B2R mu) + 2000) / B2R sigma <= huge ->
  within (6 * e + (e * Rabs (ln (B2R x)) + tiny) / B2R sigma) (plnorm (N:=NB) x mu sigma false) (lnorm_cdf (B2R mu) (B2R sigma) (B2R x)).
Proof.
  intros C HF HL Bx Fm Ps H1 H2. destruct (big_eps_R x Bx) as [Fx Ex]. pose proof ulp1_val as U. pose proof e_pos as (E1 & E2 & E3). pose proof tiny_pos. pose proof He as [_ Hb]. pose proof huge_1 as Hg. pose proof (ln_double x Bx) as LD. pose proof Ps as [Fs Ps'].
  assert (S : plnorm (N:=NB) x mu sigma false = pnorm (N:=NB) (t_log F x) mu sigma false).
  { unfold plnorm, lnorm_sanity3. change (lnorm_sanity2 (N:=NB) mu sigma) with (norm_sanity2 (N:=NB) mu sigma). rewrite ls_sanity, (nan_nn F x) by (auto; now apply nn_fin). cbn [negb andb].
    destruct (big_eps_pos _ Bx) as (_ & _ & Ev). rewrite (proj2 (eps_lt_f F x (nn_fin _ Fx)) Ev). reflexivity. }
  rewrite S. pose proof (HL x Fx ltac:(lra)) as NL. pose proof (near_within _ _ _ _ NL ltac:(lra)) as [FL WL].
  set (L := B2R (t_log F x)) in *. set (l := ln (B2R x)) in *.
  assert (BL : Rabs L <= 2000). { replace L with (l + (L - l)) by ring. eapply Rle_trans; [apply Rabs_triang|]. nra. }
  assert (D1 : Rabs (L - B2R mu) <= Rabs (B2R mu) + 2000). { eapply Rle_trans; [apply Rabs_triang|]. rewrite Rabs_Ropp. lra. }
  assert (PI0 : 0 < / B2R sigma) by now apply Rinv_0_lt_compat.
  assert (W : within (6 * e) (pnorm (N:=NB) (t_log F x) mu sigma false) (norm_cdf (B2R mu) (B2R sigma) L)).
  { apply pnorm_acc; auto.
    - fold L. assert (4000 <= huge). { unfold huge. eapply Rle_trans; [|apply bpow_le with (e1 := 20%Z); lia]. cbn. lra. } lra.
    - fold L. unfold Rdiv. rewrite Rabs_mult, (Rabs_pos_eq (/ _)) by lra. eapply Rle_trans; [|exact H2]. unfold Rdiv. nra. }
  unfold lnorm_cdf. fold l. pose proof (lnorm_lip (B2R mu) (B2R sigma) l (L - l) Ps') as LP. replace (l + (L - l)) with L in LP by ring.
  pose proof (within_tri _ _ _ _ _ W LP) as W2. eapply within_le; [exact W2|].
  apply Rplus_le_compat_l. unfold Rdiv. rewrite <- Rmult_assoc. apply Rmult_le_compat_r; [lra|]. pose proof (Rabs_pos l). nra.
Qed.

(** *** Bernoulli and Rademacher: one rounding *)
Lemma one_minus_near p : bfin p -> 0 <= B2R p <= 1 -> near ulp1 0 (bsub (bofZ 1) p) (1 - B2R p).
Proof.
  intros Fp Hp. destruct (bofZ_R 1 ltac:(sm)) as [A1 F1]. pose proof huge_1. pose proof (near_sub (bofZ 1) p F1 Fp) as N. rewrite A1 in N. apply N. rewrite Rabs_pos_eq; lra.
Qed.
Lemma pbern_acc p : Bleb (bofZ 0) p = true -> Bleb p (bofZ 1) = true -> near ulp1 0 (pbern (N:=NB) 0 p false) (1 - B2R p).
Proof. intros A B. destruct (prob_range p A B) as [Fp Rp]. unfold pbern. rewrite bern_ok by auto. cbn [negb log_if]. now apply one_minus_near. Qed.
Lemma pradem_acc p : Bleb (bofZ 0) p = true -> Bleb p (bofZ 1) = true -> near ulp1 0 (pradem (N:=NB) (-1) p false) (1 - B2R p).
Proof. intros A B. destruct (prob_range p A B) as [Fp Rp]. unfold pradem. change (radem_sanity (N:=NB) p) with (bern_sanity (N:=NB) p). rewrite bern_ok by auto. cbn [negb log_if]. now apply one_minus_near. Qed.

(** *** Student's t with one degree of freedom *)
Lemma pt1_acc x : atan_acc F e -> const_acc e (t_PI F) Rtrigo1.PI -> bfin x -> within (9 * e) (pt (N:=NB) x (bofZ 1) false) (t_cdf 1 (B2R x)).
Proof.
  intros HA HC Fx. assert (E : pt (N:=NB) x (bofZ 1) false = pcauchy_compute (N:=NB) x).
  { unfold pt, t_sanity2. rewrite (nan_nn F x) by now apply nn_fin. change (t_sanity1 (N:=NB) (bofZ 1)) with true. cbn [negb andb].
    rewrite posinf_fin, neginf_fin by auto. rewrite posinf_fin by reflexivity. reflexivity. }
  rewrite E, <- FamR.t_cdf_1. unfold cauchy_cdf. rewrite Rminus_0_r. unfold Rdiv at 3. rewrite Rinv_1, Rmult_1_r. apply cauchy_tail; auto.
  pose proof ulp1_val. pose proof tiny_pos. apply near_le with (k := 0) (h := 0); [now apply near_exact|lra|lra].
Qed.

(** *** inverse gamma *)
Lemma recip_near x : bfin x -> / huge <= B2R x <= IZR (2 ^ 51) ->
  near (2 * ulp1) 0 (bdiv (bofZ 1) x) (1 / B2R x) /\ big_eps (bdiv (bofZ 1) x).
Proof.
  intros Fx [X1 X2]. destruct (bofZ_R 1 ltac:(sm)) as [A1 F1]. pose proof ulp1_val as U. pose proof huge_1 as Hg. pose proof tiny_huge as TH. pose proof tiny_pos as TP. pose proof huge_inv as HI.
  assert (P51 : IZR (2 ^ 51) = bpow radix2 51) by reflexivity.
  assert (Q : bpow radix2 (-51) <= 1 / B2R x <= huge).
  { unfold Rdiv. rewrite Rmult_1_l. split; [change (-51)%Z with (- (51))%Z; rewrite bpow_opp, <- P51|rewrite <- (Rinv_inv huge)]; apply Rinv_le_contravar; lra. }
  pose proof (bpow_gt_0 radix2 (-51)) as P.
  assert (H : Rabs (1 / B2R x) <= 4 * huge) by (rewrite Rabs_pos_eq; lra).
  assert (N : near ulp1 tiny (bdiv (bofZ 1) x) (1 / B2R x)). { rewrite <- A1. apply near_div0; auto; [lra|now rewrite A1]. }
  assert (HL : / huge <= bpow radix2 (-51)). { unfold huge. rewrite <- bpow_opp. apply bpow_le. lia. }
  split.
  - replace (2 * ulp1) with (ulp1 + ulp1) by ring. apply near_rel with (h := tiny); auto; [lra|]. rewrite Rabs_pos_eq by lra. nra.
  - destruct N as [Fq _]. destruct eps_R as [Ee Fe].
    assert (L : ulp1 <= B2R (bdiv (bofZ 1) x)).
    { destruct (bdiv_R (bofZ 1) x F1 ltac:(lra)) as [E _]; [rewrite A1; now apply rnd_bound|]. rewrite E, A1. unfold ulp1.
      rewrite <- (rnd_fmt (bpow radix2 (-52))); [apply rnd_le|rewrite <- (Rmult_1_l (bpow radix2 (-52))); apply (fmt_dyadic 1 (-52)); lia].
      eapply Rle_trans; [apply bpow_le with (e2 := (-51)%Z); lia|lra]. }
    split; [apply bleb_R; auto; lra|]. apply ltb_ev; [now apply nn_fin|reflexivity|]. unfold plus_inf. rewrite ev_p. apply fin_lt; auto.
Qed.
Lemma pinvgamma_acc x shape rate : incgamma_acc F e -> bfin x -> bpos shape -> bfin rate -> B2R shape <= 1000000 ->
  / huge <= B2R x <= IZR (2 ^ 51) -> / huge <= B2R rate <= IZR (2 ^ 51) -> / huge <= B2R rate / B2R x <= huge ->
  within (4 * e + 7 * B2R shape * ulp1) (pinvgamma (N:=NB) x shape rate false) (invgamma_cdf (B2R shape) (B2R rate) (B2R x)).
Proof.
  intros HF Fx Psh Fr Hs Hx Hr Hq. pose proof He as [_ Hb6]. pose proof e_pos as (E1 & E2 & E3). pose proof tiny_pos as TP. pose proof tiny_huge as TH. pose proof huge_1 as Hg. pose proof ulp1_val as U. pose proof huge_inv as HI. pose proof Psh as [Fsh Psh'].
  destruct (recip_near x Fx Hx) as [N1 B1]. destruct (recip_near rate Fr Hr) as [N2 B2].
  assert (Px : bpos x) by (split; auto; lra). assert (Pr : bpos rate) by (split; auto; lra).
  rewrite pinvgamma_fin by (auto; split; auto).
  assert (EQ : 1 / B2R x / (1 / B2R rate) = B2R rate / B2R x) by (field; split; lra).
  assert (Rn : 1 / B2R rate <> 0) by (apply Rgt_not_eq; apply Rdiv_lt_0_compat; lra).
  pose proof (near_div _ 0 _ 0 _ _ _ _ N1 N2 Rn ltac:(lra)) as N3. rewrite EQ in N3.
  specialize (N3 ltac:(rewrite Rabs_pos_eq; lra) ltac:(unfold Rdiv; lra) ltac:(lra)).
  assert (N4 : near (6 * ulp1) 0 (bdiv (bdiv (bofZ 1) x) (bdiv (bofZ 1) rate)) (B2R rate / B2R x)).
  { replace (6 * ulp1) with (2 * ulp1 + 2 * ulp1 + ulp1 + ulp1) by ring. apply near_rel with (h := 2 * 0 + tiny); auto; [lra|]. rewrite Rabs_pos_eq by lra. nra. }
  destruct N4 as (Fq & t & s & T & S & E). apply abs_le0 in S. subst s. rewrite Rplus_0_r in E.
  assert (Pq : 0 < B2R (bdiv (bdiv (bofZ 1) x) (bdiv (bofZ 1) rate))) by (rewrite E; apply Rmult_lt_0_compat; [lra|apply exp_pos]).
  destruct (HF shape Fsh Psh' _ Fq Pq) as (Fw & t2 & s2 & T2 & S2 & W).
  destruct (cond_PG (B2R shape) (B2R rate / B2R x) t Psh' ltac:(lra)) as (u & Hu & EU).
  pose proof (PG_range (B2R shape) (B2R rate / B2R x) Psh' ltac:(lra)) as PR.
  assert (KU : B2R shape * (6 * ulp1) <= / 1000) by (rewrite U; nra).
  assert (N5 : near (B2R shape * (6 * ulp1) + e) tiny (t_incgamma F shape (bdiv (bdiv (bofZ 1) x) (bdiv (bofZ 1) rate))) (PG (B2R shape) (B2R rate / B2R x))).
  { split; auto. exists (u + t2), s2. split; [|split; auto].
    - apply abs_sum; auto. eapply Rle_trans; [exact Hu|]. apply Rmult_le_compat_l; lra.
    - rewrite W, E, EU, exp_plus. ring. }
  assert (SU : 0 <= B2R shape * ulp1) by (apply Rmult_le_pos; lra).
  assert (W5 : within (101 / 100 * (B2R shape * (6 * ulp1) + e) + tiny) (t_incgamma F shape (bdiv (bdiv (bofZ 1) x) (bdiv (bofZ 1) rate))) (PG (B2R shape) (B2R rate / B2R x))).
  { eapply within_le; [apply (near_within _ _ _ _ N5); lra|]. rewrite Rabs_pos_eq by lra. nra. }
  unfold invgamma_cdf. eapply within_le; [apply (within_sub 0 _ _ _ 1 _ 1 (within_Z 1 ltac:(sm)) W5); try lra; rewrite Rabs_pos_eq; lra|lra].
Qed.

(** *** Poisson: the branch through the incomplete gamma function *)
Lemma ppois_acc x rate : incgamma_acc F e -> (0 <= x < 2 ^ 53)%Z -> bpos rate -> 10 < B2R rate \/ (15 < x)%Z ->
  within (4 * e) (ppois (N:=NB) x rate false) (sum_f_R0 (pois_pmf (B2R rate)) (Z.to_nat x)).
Proof.
  intros HF Hx Pr Hb. pose proof e_pos as (E1 & E2 & E3). pose proof tiny_pos as TP. pose proof huge_1 as Hg. pose proof ulp1_val as U. pose proof Pr as [Fr Pr'].
  destruct (bofZ_R 10 ltac:(sm)) as [A10 F10]. destruct (bofZ_R (x + 1)) as [Ax Fk]; [rewrite Z.abs_eq; lia|].
  assert (S : ppois (N:=NB) x rate false = bsub (bofZ 1) (t_incgamma F (bofZ (x + 1)) rate)).
  { unfold ppois, pois_sanity. rewrite (nan_nn F rate) by now apply nn_fin. change (ltb rate (ofZ 0)) with (Bltb rate (bofZ 0)). rewrite lt0_f by (auto; lra). cbn [negb andb].
    rewrite (proj2 (Z.ltb_ge x 0)) by lia. rewrite posinf_fin by auto. cbn [log_if]. unfold ppois_compute.
    change (ltb (ofZ 10) rate) with (Bltb (bofZ 10) rate).
    replace (Bltb (bofZ 10) rate || (15 <? x)%Z) with true; [reflexivity|]. symmetry. apply orb_true_iff. destruct Hb as [Hb|Hb]; [left; apply bltb_R; auto; lra|right; now apply Z.ltb_lt]. }
  rewrite S. assert (Kp : 0 < B2R (bofZ (x + 1))) by (rewrite Ax; apply (IZR_lt 0); lia).
  pose proof (HF _ Fk Kp rate Fr Pr') as N. rewrite Ax in N.
  assert (EI : IZR (x + 1) = INR (Z.to_nat x) + 1) by (rewrite INR_IZR_INZ, Z2Nat.id, plus_IZR by lia; reflexivity).
  rewrite EI in N. pose proof (PG_range (INR (Z.to_nat x) + 1) (B2R rate) ltac:(rewrite <- EI; apply (IZR_lt 0); lia) ltac:(lra)) as PR.
  pose proof (PG_int (Z.to_nat x) (B2R rate) ltac:(lra)) as PI.
  pose proof (Discrete.pois_sum_scal (B2R rate) (Z.to_nat x)) as PS. rewrite PS.
  replace (exp (- B2R rate) * sum_f_R0 (fun k : nat => B2R rate ^ k / INR (fact k)) (Z.to_nat x)) with (1 - PG (INR (Z.to_nat x) + 1) (B2R rate)) by lra.
  assert (W5 : within (101 / 100 * e + tiny) (t_incgamma F (bofZ (x + 1)) rate) (PG (INR (Z.to_nat x) + 1) (B2R rate))).
  { eapply within_le; [apply (near_within _ _ _ _ N); lra|]. rewrite Rabs_pos_eq by lra. nra. }
  eapply within_le; [apply (within_sub 0 _ _ _ 1 _ 1 (within_Z 1 ltac:(sm)) W5); try lra; rewrite Rabs_pos_eq; lra|lra].
Qed.
End A3.
