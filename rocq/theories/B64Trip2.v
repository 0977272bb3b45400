(** Round trips in binary64, the remaining families. *)
From Coq Require Import ZArith QArith Reals Bool Lra Lia.
From Verif Require Import RealElem RealAcc RealAccQ RealTrip RealTrip2 Erf GammaFn BetaFn NormR Spec SpecSF FamR.
From Verif Require Import Num Sanity Prob Dens Quant B64 B64R B64Ord SpecB64 SpecAcc SpecAccQ SpecTrip B64Cdf B64Cdf2 B64Cdf3 B64Unif B64Quant B64Quant2 B64Acc B64AccCdf B64AccCdf2 B64AccCdf3 B64AccQ B64AccQ2 B64AccQ3 B64AccQ4 B64Trip.
From Flocq Require Import Core Sterbenz IEEE754.BinarySingleNaN.
Local Open Scope R_scope.
Notation exp := Rtrigo_def.exp. Notation PI := Rtrigo1.PI. Notation tan := Rtrigo1.tan.

(** a relative error of the argument, carried through a function *)
Lemma near_shift k h k2 y a b u : near k h y a -> a = b * exp u -> Rabs u <= k2 -> near (k + k2) h y b.
Proof.
  intros (Fy & t & s & T & S & E) -> U. split; auto. exists (u + t), s. split; [rewrite Rplus_comm; eapply Rle_trans; [apply Rabs_triang|lra]|split; auto]. rewrite E, exp_plus. ring.
Qed.
Lemma near_rel' k h (x : b64) q : near k h x q -> 0 <= k <= / 200 -> 8 * h <= ulp1 * q -> 0 < q -> bfin x /\ exists t, Rabs t <= k + ulp1 /\ B2R x = q * exp t.
Proof.
  intros N K H P. destruct (near_rel k h x q N K ltac:(rewrite Rabs_pos_eq; lra)) as (Fx & t & s & T & S & E). apply abs_le0 in S. subst s. split; auto. exists t. split; auto. lra.
Qed.
Lemma is_big x : bfin x -> ulp1 <= B2R x -> big_eps x.
Proof. intros Fx H. destruct eps_R as [E Fe]. split; [apply bleb_R; auto; lra|]. destruct x as [?|?| |? ? ? ?]; try discriminate; try destruct s; reflexivity. Qed.

Section Trip2.
Variable F : TF.
Notation NB := (B64_Num F).
Variable e : R.
Hypothesis He : unit_ok e.
Local Notation e_pos := (e_pos e He).

Ltac setup0 := pose proof e_pos as (E1 & E2 & E3); pose proof He as [_ Hb]; pose proof ulp1_val as U1; pose proof big_pos as Bp; pose proof big_1 as B1; pose proof tiny_pos as T0; pose proof (tiny_mul 1 ltac:(lra)) as T1; pose proof tiny_big as TB; pose proof huge_1 as H1; pose proof huge_inv as HI; pose proof big_huge as BH;
  revert B1; change (IZR (2 ^ 100)) with 1267650600228229401496703205376; intros B1.
Lemma tiny_ulp : tiny * big <= ulp1 * ulp1 / 1000000.
Proof. unfold tiny, big, ulp1. rewrite <- !bpow_plus. apply Rle_trans with (bpow radix2 (-124)); [apply bpow_le; lia|]. apply (Rmult_le_reg_r 1000000); [lra|]. unfold Rdiv. rewrite Rmult_assoc, Rinv_l, Rmult_1_r by lra. apply Rle_trans with (bpow radix2 (-124) * bpow radix2 20); [apply Rmult_le_compat_l; [apply bpow_ge_0|cbn; lra]|]. rewrite <- bpow_plus. apply bpow_le. lia. Qed.

Ltac eqs := change (eqb ?p (ofZ 0)) with (Beqb p (bofZ 0)); change (eqb ?p (ofZ 1)) with (Beqb p (bofZ 1)).
Ltac neq p O := rewrite (proj1 (neq01 p O)), (proj2 (neq01 p O)).
Lemma tiny_abs s q : 0 <= s <= big -> ulp1 <= q -> 8 * ((1 + 4 * s) * tiny) <= ulp1 * q.
Proof.
  intros Hs Hq. pose proof tiny_ulp. pose proof tiny_pos. pose proof big_pos. pose proof ulp1_val. assert (0 < ulp1 * ulp1) by (rewrite H2; lra). assert (ulp1 * ulp1 <= ulp1 * q) by (apply Rmult_le_compat_l; lra).
  assert (tiny * (1 + 4 * s) <= tiny * (5 * big)) by (apply Rmult_le_compat_l; lra). lra.
Qed.
Lemma exp_box q t k : Rabs t <= k -> k <= / 200 -> 0 < q -> 3 / 4 * q <= q * exp t <= 2 * q.
Proof. intros T K Q. pose proof (exp_abs' t k T K) as X. apply Rabs_le_inv in X. rewrite (Rmult_comm q). split; apply Rmult_le_compat_r; lra. Qed.
(** *** uniform *)
Lemma unif_trip64 p a b : prob p -> bfin a -> bfin b -> Rabs (B2R a) <= big -> / big <= B2R b - B2R a <= big ->
  within (9 * ulp1 + 5 * ulp1 * (Rabs (B2R a) / (B2R b - B2R a))) (punif (N:=NB) (qunif (N:=NB) p a b) a b false) (B2R p).
Proof.
  intros O Fa Fb Ha Hw. setup0. pose proof O as [Fp Pp]. assert (Ib : 0 < / big) by (apply Rinv_0_lt_compat; lra). set (w := B2R b - B2R a) in *. assert (W0 : 0 < w) by lra.
  assert (Iw : 0 < / w <= big). { split; [now apply Rinv_0_lt_compat|]. rewrite <- (Rinv_inv big). apply Rinv_le_contravar; lra. }
  set (q := B2R a + B2R p * w). assert (Eq : unif_cdf (B2R a) (B2R b) q = B2R p) by (unfold unif_cdf; fold w; unfold q; field; lra). pose proof (Rabs_pos (B2R a)).
  destruct (qunif_acc F p a b q O Fa Fb ltac:(unfold w in *; lra) Eq ltac:(fold w; lra)) as [Fx Dx]. set (x := qunif (N:=NB) p a b) in *.
  assert (W : within (3 * ulp1 * (101 / 100) + tiny) (punif (N:=NB) x a b false) (clamp ((B2R x - B2R a) / w))).
  { destruct (bofZ_R 0 ltac:(sm)) as [A0 F0], (bofZ_R 1 ltac:(sm)) as [A1 F1].
    assert (S : forall u, punif_compute (N:=NB) x a b = u -> punif (N:=NB) x a b false = u).
    { intros u <-. unfold punif, unif_sanity3, unif_sanity2, any_nan2. rewrite (nan_nn F x), (nan_nn F a), (nan_nn F b) by (auto; now apply nn_fin).
      change (leb b a) with (Bleb b a). rewrite (proj2 (bleb_R_f b a Fb Fa)) by (unfold w in *; lra). cbn [orb negb andb]. unfold all_inf2. rewrite inf_fin by auto. reflexivity. }
    destruct (Rle_dec (B2R x) (B2R a)) as [C|C].
    - rewrite (S (bofZ 0)). + split; [exact F0|]. rewrite A0. unfold clamp. assert ((B2R x - B2R a) / w <= 0) by (unfold Rdiv; nra). rewrite Rmin_left, Rmax_left by lra. rewrite Rminus_0_r, Rabs_R0. nra.
      + unfold punif_compute. change (leb x a) with (Bleb x a). now rewrite (proj2 (bleb_R x a Fx Fa)).
    - destruct (Rle_dec (B2R b) (B2R x)) as [C2|C2].
      + rewrite (S (bofZ 1)). * split; [exact F1|]. rewrite A1. unfold clamp. assert (1 <= (B2R x - B2R a) / w). { apply (Rmult_le_reg_r w); auto. unfold Rdiv. rewrite Rmult_assoc, Rinv_l by lra. unfold w. lra. }
          rewrite Rmin_right, Rmax_right by lra. unfold Rminus. rewrite Rplus_opp_r, Rabs_R0. nra.
        * unfold punif_compute. change (leb x a) with (Bleb x a). change (leb b x) with (Bleb b x). rewrite (proj2 (bleb_R_f x a Fx Fa)) by lra. now rewrite (proj2 (bleb_R b x Fb Fx)).
      + pose proof (near_within _ _ _ _ (punif_acc F x a b Fx Fa Fb ltac:(lra) ltac:(fold w; lra)) ltac:(lra)) as N. unfold unif_cdf in N. fold w in N.
        assert (V : 0 <= (B2R x - B2R a) / w <= 1). { split; [apply Rle_mult_inv_pos; lra|]. apply (Rmult_le_reg_r w); auto. unfold Rdiv. rewrite Rmult_assoc, Rinv_l by lra. unfold w. lra. }
        unfold clamp. rewrite Rmin_left, Rmax_right by lra. eapply within_le; [exact N|]. rewrite Rabs_pos_eq by lra. nra. }
  assert (T : Rabs (clamp ((B2R x - B2R a) / w) - B2R p) <= 5 * ulp1 * (Rabs (B2R a) / w) + 5 * ulp1 + 2 * (ulp1 / 1000000)).
  { assert (Ep : B2R p = clamp (B2R p)) by (unfold clamp; rewrite Rmin_left, Rmax_right; lra). rewrite Ep at 1. eapply Rle_trans; [apply clamp_lip|].
    replace ((B2R x - B2R a) / w - B2R p) with ((B2R x - q) / w) by (unfold q; field; lra). unfold Rdiv at 1. rewrite Rabs_mult, Rabs_inv, (Rabs_pos_eq w) by lra.
    eapply Rle_trans; [apply Rmult_le_compat_r; [lra|exact Dx]|]. replace (q - B2R a) with (B2R p * w) by (unfold q; ring).
    pose proof (tiny_mul (/ w) ltac:(lra)). replace ((5 * ulp1 * (Rabs (B2R a) + B2R p * w) + 2 * tiny) * / w) with (5 * ulp1 * (Rabs (B2R a) / w) + 5 * ulp1 * B2R p + 2 * (tiny * / w)) by (field; lra). nra. }
  eapply within_le; [exact (within_tri _ _ _ _ _ W T)|]. lra.
Qed.
(** *** Student, one degree of freedom *)
Lemma t1_trip64 p q : tan_acc F e -> atan_acc F e -> const_acc e (t_PI F) PI -> prob p -> t_cdf 1 q = B2R p -> 200 * e * Rabs q <= 1 ->
  within (16 * e) (pt (N:=NB) (qt (N:=NB) p (bofZ 1)) (bofZ 1) false) (B2R p).
Proof.
  intros HT HA C O Eq HQ. setup0. pose proof (Rabs_pos q). destruct (qt1_acc F e He p q HT C O Eq ltac:(nra)) as [Fx Dx]. set (x := qt (N:=NB) p (bofZ 1)) in *.
  pose proof (pt1_acc F e He x HA C Fx) as W. rewrite <- t_cdf_1 in W, Eq.
  pose proof (cauchy_trip 0 1 q (B2R x) (13 * e) 0 ltac:(lra) ltac:(lra) ltac:(lra)) as T. replace ((q - 0) / 1) with q in T by field.
  specialize (T ltac:(nra) ltac:(lra)). rewrite Eq in T. eapply within_le; [exact (within_tri _ _ _ _ _ W T)|]. lra.
Qed.
(** *** Student, infinite degrees of freedom *)
Lemma tinf_trip64 p : const_acc e (t_SQRT_2 F) (R_sqrt.sqrt 2) -> erf_acc F e -> erf_inv_acc F e -> prob p -> B2R (bsub (bmul (bofZ 2) p) (bofZ 1)) = 2 * B2R p - 1 ->
  within (10 * e) (pt (N:=NB) (qt (N:=NB) p plus_inf) plus_inf false) (B2R p).
Proof.
  intros C E EI O Hp. setup0. pose proof (prob_o p O) as O'. destruct (bofZ_R 0 ltac:(sm)) as [A0 F0], (bofZ_R 1 ltac:(sm)) as [A1 F1].
  assert (U : usual (bofZ 0) (bofZ 1)). { assert (/ big <= 1) by (rewrite <- Rinv_1; apply Rinv_le_contravar; lra). repeat split; auto; rewrite ?A0, ?A1, ?Rabs_R0; lra. }
  assert (Eo : offset (bofZ 0) (bofZ 1) = 0) by (unfold offset; rewrite A0, Rabs_R0; unfold Rdiv; ring).
  pose proof (norm_trip64 F e He p (bofZ 0) (bofZ 1) C E EI O Hp U) as W. rewrite Eo in W.
  assert (Ez : qt (N:=NB) p plus_inf = qnorm (N:=NB) p (bofZ 0) (bofZ 1)).
  { unfold qt, plus_inf. rewrite pvc by now apply o_in. change (t_sanity1 (N:=NB) (B754_infinity false)) with true. cbn [negb]. eqs. neq p O'. reflexivity. }
  assert (Fx : bfin (qnorm (N:=NB) p (bofZ 0) (bofZ 1))).
  { destruct (norm_q p (bofZ 0) (bofZ 1) O Hp U) as (q & Eq & Hq). apply (qnorm_acc F e He p (bofZ 0) (bofZ 1) q C EI O Hp F0); auto; [split; auto; lra|lra|]. rewrite A0, A1, Rabs_R0, Rminus_0_r in *. lra. }
  rewrite Ez. replace (pt (N:=NB) (qnorm (N:=NB) p (bofZ 0) (bofZ 1)) plus_inf false) with (pnorm (N:=NB) (qnorm (N:=NB) p (bofZ 0) (bofZ 1)) (bofZ 0) (bofZ 1) false).
  - eapply within_le; [exact W|lra].
  - symmetry. unfold pt, t_sanity2. rewrite (nan_nn F) by now apply nn_fin. change (t_sanity1 (N:=NB) plus_inf) with true. cbn [negb andb]. rewrite posinf_fin, neginf_fin by auto. reflexivity.
Qed.
(** *** gamma, chi-squared *)
Lemma gamma_trip64 p shape scale q : incgamma_acc F e -> incgamma_inv_acc F e -> prob p -> bpos shape -> big_eps scale -> B2R scale <= big ->
  2 * ulp1 <= q <= big -> gamma_cdf (B2R shape) (B2R scale) q = B2R p ->
  near (e + 5 * B2R shape * e) tiny (pgamma (N:=NB) (qgamma (N:=NB) p shape scale) shape scale false) (B2R p).
Proof.
  intros HG HI' O Psh Bsc Hs Hq Eq. setup0. pose proof tiny_ulp as TU. destruct (big_eps_R _ Bsc) as [Fsc Lsc]. pose proof Psh as [Fsh Psh'].
  assert (Iu : / ulp1 <= 10000000000000000) by (rewrite U1; lra).
  assert (Is : 0 < / B2R scale <= / ulp1) by (split; [apply Rinv_0_lt_compat; lra|apply Rinv_le_contravar; lra]).
  assert (Ib : / big <= / B2R scale) by (apply Rinv_le_contravar; lra).
  assert (Qs : q / B2R scale <= big * 10000000000000000) by (unfold Rdiv; apply Rmult_le_compat; lra).
  destruct (near_rel' _ _ _ _ (qgamma_acc F e He p shape scale q HI' O Psh Bsc ltac:(lra) ltac:(lra) ltac:(lra) Eq)) as (Fx & t & T & Ex); [lra| |lra|].
  { apply tiny_abs; lra. }
  set (x := qgamma (N:=NB) p shape scale) in *. pose proof (exp_abs' t _ T ltac:(lra)) as X. apply Rabs_le_inv in X.
  assert (Xb : 3 / 4 * q <= B2R x <= 2 * q) by (rewrite Ex; apply (exp_box q t _ T); lra).
  assert (Xs : 3 / 4 * (q / B2R scale) <= B2R x / B2R scale <= 2 * (q / B2R scale)) by (unfold Rdiv; split; nra).
  assert (Lq : 100 * / huge <= q / B2R scale). { apply Rle_trans with (ulp1 * / big). 2:{ unfold Rdiv. apply Rmult_le_compat; try lra. }
    unfold ulp1, huge, big. rewrite <- !bpow_opp, <- bpow_plus. apply Rle_trans with (bpow radix2 7 * bpow radix2 (-1000)); [apply Rmult_le_compat_r; [apply bpow_ge_0|cbn; lra]|]. rewrite <- bpow_plus. apply bpow_le. lia. }
  pose proof (pgamma_acc F e x shape scale HG (is_big x Fx ltac:(lra)) Psh Bsc ltac:(lra)) as N.
  destruct (gamma_shift (B2R shape) (B2R scale) q t Psh' ltac:(lra) ltac:(lra)) as (u & Hu & Eu). rewrite Ex, Eu, Eq in N.
  eapply near_le; [exact (near_shift _ _ _ _ _ _ u N eq_refl Hu)| |lra].
  assert (B2R shape * Rabs t <= B2R shape * (e + 2 * ulp1)) by (apply Rmult_le_compat_l; lra). assert (B2R shape * ulp1 <= B2R shape * e) by (apply Rmult_le_compat_l; lra). lra.
Qed.
Lemma chisq_trip64 p dof q : incgamma_acc F e -> incgamma_inv_acc F e -> prob p -> bfin dof -> / huge <= B2R dof <= huge -> 2 * ulp1 <= q <= big ->
  chisq_cdf (B2R dof) q = B2R p -> near (e + 3 / 2 * B2R dof * e) tiny (pchisq (N:=NB) (qchisq (N:=NB) p dof) dof false) (B2R p).
Proof.
  intros HG HI' O Fd Hd Hq Eq. setup0. pose proof tiny_ulp as TU.
  destruct (near_rel' _ _ _ _ (qchisq_acc F e He p dof q HI' O Fd Hd ltac:(lra) Eq)) as (Fx & t & T & Ex); [lra| |lra|].
  { pose proof (tiny_abs big q ltac:(lra) ltac:(lra)) as Q. apply Rle_trans with (8 * ((1 + 4 * big) * tiny)); auto. apply Rmult_le_compat_l; [lra|]. apply Rmult_le_compat_r; lra. }
  set (x := qchisq (N:=NB) p dof) in *. pose proof (exp_abs' t _ T ltac:(lra)) as X. apply Rabs_le_inv in X.
  assert (Xb : 3 / 4 * q <= B2R x <= 2 * q) by (rewrite Ex; apply (exp_box q t _ T); lra).
  pose proof (pchisq_acc F e x dof HG (is_big x Fx ltac:(lra)) Fd Hd ltac:(lra)) as N.
  destruct (cond_PG (B2R dof / 2) (q / 2) t ltac:(lra) ltac:(lra)) as (u & Hu & Eu). unfold chisq_cdf in *. rewrite Ex in N. replace (q * exp t / 2) with (q / 2 * exp t) in N by field. rewrite Eu, Eq in N.
  eapply near_le; [exact (near_shift _ _ _ _ _ _ u N eq_refl Hu)| |lra].
  assert (B2R dof / 2 * Rabs t <= B2R dof / 2 * (e + 2 * ulp1)) by (apply Rmult_le_compat_l; lra). assert (B2R dof * ulp1 <= B2R dof * e) by (apply Rmult_le_compat_l; lra). lra.
Qed.
(** *** Weibull *)
Lemma weibull_trip64 p shape scale q : log1p_acc F e -> expm1_acc F e -> pow_acc F e -> pow_sign F -> prob p -> / huge <= B2R p -> big_eps shape -> big_eps scale ->
  2000000 * e <= B2R shape -> B2R shape * e <= / 100 -> B2R shape <= 1000000000 -> B2R scale <= big -> 2 * ulp1 <= q <= big -> weibull_cdf (B2R shape) (B2R scale) q = B2R p ->
  near (5 * e + 6 * B2R shape * e + 3 * ulp1 * Rabs (ln (- ln (1 - B2R p)))) (4 * tiny) (pweibull (N:=NB) (qweibull (N:=NB) p shape scale) shape scale false) (B2R p).
Proof.
  intros HL HE HP HS O Hp Bsh Bsc Hk1 Hk2 Hk Hs Hq Eq. setup0. pose proof tiny_ulp as TU. destruct (big_eps_R _ Bsc) as [Fsc Lsc], (big_eps_R _ Bsh) as [Fsh Lsh].
  assert (Iu : / ulp1 <= 10000000000000000) by (rewrite U1; lra).
  assert (Is : 0 < / B2R scale <= / ulp1) by (split; [apply Rinv_0_lt_compat; lra|apply Rinv_le_contravar; lra]).
  assert (Ib : / big <= / B2R scale) by (apply Rinv_le_contravar; lra).
  assert (Qs : q / B2R scale <= big * 10000000000000000) by (unfold Rdiv; apply Rmult_le_compat; lra).
  set (k := B2R shape) in *. set (L := Rabs (ln (q / B2R scale))) in *. assert (L0 : 0 <= L) by apply Rabs_pos.
  assert (Ik : 0 < / k) by (apply Rinv_0_lt_compat; lra). assert (Ek : 0 <= 3 * e / k) by (unfold Rdiv; apply Rmult_le_pos; lra). assert (EL : 0 <= 3 * ulp1 * L) by (apply Rmult_le_pos; lra).
  assert (Ew : k * ln (q / B2R scale) = ln (- ln (1 - B2R p))) by (apply weibull_log; auto; lra).
  assert (Pq : 0 < q / B2R scale) by (apply Rdiv_lt_0_compat; lra). pose proof O as [_ Rp].
  assert (LL : B2R p <= - ln (1 - B2R p) <= 53). { pose proof (ln_1m p O). pose proof (exp_ineq1_le (ln (1 - B2R p))) as Q. rewrite exp_ln in Q by lra. lra. }
  assert (WL : k * L <= 1000).
  { unfold L. rewrite <- (Rabs_pos_eq k) at 1 by lra. rewrite <- Rabs_mult, Ew. pose proof (ln2_1) as L2. apply Rabs_le. split.
    - apply Rle_trans with (ln (/ huge)); [|apply ln_mono'; lra]. rewrite ln_Rinv by lra. unfold huge. rewrite bpow_exp. cbn [radix_val radix2]. rewrite ln_exp. lra.
    - apply Rle_trans with (ln (bpow radix2 6)); [apply ln_mono'; [lra|cbn; lra]|]. rewrite bpow_exp. cbn [radix_val radix2]. rewrite ln_exp. lra. }
  assert (Lk : 3 * ulp1 * L <= / 600). { apply Rle_trans with (3 * (e / k) * 1000); [|apply Rle_trans with (3 * / 2000000 * 1000); [|lra]; apply Rmult_le_compat_r; [lra|]; apply Rmult_le_compat_l; [lra|]; apply (Rmult_le_reg_r k); [lra|]; unfold Rdiv; rewrite Rmult_assoc, Rinv_l by lra; lra].
    apply Rle_trans with (3 * e * L); [apply Rmult_le_compat_r; lra|]. replace (3 * e * L) with (3 * (e / k) * (k * L)) by (field; lra). apply Rmult_le_compat_l; [unfold Rdiv in *; lra|lra]. }
  assert (Ke : 3 * e / k <= / 600000) by (apply (Rmult_le_reg_r k); [lra|]; unfold Rdiv; rewrite Rmult_assoc, Rinv_l by lra; lra).
  destruct (near_rel' _ _ _ _ (qweibull_acc F e He p shape scale q HL HP O Hp Bsh Bsc ltac:(fold k; lra) Eq ltac:(lra) ltac:(lra) ltac:(lra) ltac:(lra) ltac:(fold k L; lra))) as (Fx & t & T & Ex); [fold k L; lra| |lra|].
  { apply tiny_abs; lra. }
  fold k L in T. set (x := qweibull (N:=NB) p shape scale) in *. pose proof (exp_abs' t _ T ltac:(lra)) as X. apply Rabs_le_inv in X.
  assert (Xb : 3 / 4 * q <= B2R x <= 2 * q) by (rewrite Ex; apply (exp_box q t _ T); lra).
  assert (Xs : 3 / 4 * (q / B2R scale) <= B2R x / B2R scale <= 2 * (q / B2R scale)) by (unfold Rdiv; split; nra).
  assert (Lq : 100 * / huge <= q / B2R scale). { apply Rle_trans with (ulp1 * / big). 2:{ unfold Rdiv. apply Rmult_le_compat; try lra. }
    unfold ulp1, huge, big. rewrite <- !bpow_opp, <- bpow_plus. apply Rle_trans with (bpow radix2 7 * bpow radix2 (-1000)); [apply Rmult_le_compat_r; [apply bpow_ge_0|cbn; lra]|]. rewrite <- bpow_plus. apply bpow_le. lia. }
  (* the power at the computed quantile *)
  assert (PW : Rpower (B2R x / B2R scale) k <= huge / 2).
  { replace (B2R x / B2R scale) with (q / B2R scale * exp t) by (rewrite Ex; field; lra). rewrite Rpower_exp by auto.
    assert (R1 : Rpower (q / B2R scale) k = - ln (1 - B2R p)) by (unfold Rpower; rewrite Ew, exp_ln; lra). rewrite R1.
    assert (exp (k * t) <= 3). { apply Rle_trans with (exp 1); [|apply exp_le_3]. pose proof (Rle_abs t).
      assert (k * t <= k * (3 * e + 3 * e / k + 3 * ulp1 * L + ulp1)) by (apply Rmult_le_compat_l; lra).
      replace (k * (3 * e + 3 * e / k + 3 * ulp1 * L + ulp1)) with (3 * (k * e) + 3 * e + 3 * ulp1 * (k * L) + k * ulp1) in H0 by (field; lra).
      assert (k * ulp1 <= k * e) by (apply Rmult_le_compat_l; lra). assert (ulp1 * (k * L) <= ulp1 * 1000) by (apply Rmult_le_compat_l; lra).
      destruct (Req_dec (k * t) 1) as [->|]; [lra|]. left. apply exp_increasing. lra. }
    pose proof (exp_pos (k * t)). apply Rle_trans with (53 * 3); [apply Rmult_le_compat; lra|lra]. }
  pose proof (pweibull_acc F e He x shape scale HE HP HS (is_big x Fx ltac:(lra)) Bsh Bsc ltac:(lra) PW Hk) as N. fold k in N.
  destruct (weibull_shift k (B2R scale) q t ltac:(lra) ltac:(lra) ltac:(lra)) as (u & Hu & Eu). rewrite Ex, Eu, Eq in N.
  eapply near_le; [exact (near_shift _ _ _ _ _ _ u N eq_refl Hu)| |lra].
  rewrite <- (weibull_log k (B2R scale) q (B2R p)) by (auto; lra). rewrite Rabs_mult, (Rabs_pos_eq k) by lra. fold L.
  assert (k * Rabs t <= k * (3 * e + 3 * e / k + 3 * ulp1 * L + ulp1)) by (apply Rmult_le_compat_l; lra).
  replace (k * (3 * e + 3 * e / k + 3 * ulp1 * L + ulp1)) with (3 * (k * e) + 3 * e + 3 * ulp1 * (k * L) + k * ulp1) in H by (field; lra). assert (k * ulp1 <= k * e) by (apply Rmult_le_compat_l; lra). lra.
Qed.
End Trip2.
