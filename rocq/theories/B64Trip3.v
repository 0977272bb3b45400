(** Round trips in binary64: beta, log-normal, inverse gamma, and Student with two degrees of freedom. *)
From Coq Require Import ZArith QArith Reals Bool Lra Lia.
From Verif Require Import RealElem RealAcc RealAccQ RealTrip RealTrip2 Erf GammaFn BetaFn NormR Spec SpecSF FamR.
From Verif Require Import Num Sanity Prob Dens Quant B64 B64R B64Ord SpecB64 SpecAcc SpecAccQ SpecTrip B64Cdf B64Cdf2 B64Cdf3 B64Unif B64Quant B64Quant2 B64Acc B64AccCdf B64AccCdf2 B64AccCdf3 B64AccQ B64AccQ2 B64AccQ3 B64AccQ4 B64Trip B64Trip2.
From Flocq Require Import Core Sterbenz IEEE754.BinarySingleNaN.
Local Open Scope R_scope.
Notation exp := Rtrigo_def.exp. Notation PI := Rtrigo1.PI. Notation tan := Rtrigo1.tan.

Lemma exp_nat n : exp (INR n) <= 3 ^ n.
Proof.
  induction n as [|n IH]; [cbn; rewrite exp_0; lra|]. rewrite S_INR, exp_plus. cbn [Rpow_def.pow]. pose proof exp_le_3. pose proof (exp_pos 1). pose proof (exp_pos (INR n)). nra.
Qed.
Section Trip3.
Variable F : TF.
Notation NB := (B64_Num F).
Variable e : R.
Hypothesis He : unit_ok e.
Local Notation e_pos := (e_pos e He).
Ltac setup0 := pose proof e_pos as (E1 & E2 & E3); pose proof He as [_ Hb]; pose proof ulp1_val as U1; pose proof big_pos as Bp; pose proof big_1 as B1; pose proof tiny_pos as T0; pose proof (tiny_mul 1 ltac:(lra)) as T1; pose proof tiny_big as TB; pose proof huge_1 as H1; pose proof huge_inv as HI; pose proof big_huge as BH;
  revert B1; change (IZR (2 ^ 100)) with 1267650600228229401496703205376; intros B1; assert (Ib : 0 < / big) by (apply Rinv_0_lt_compat; lra).
Lemma tiny_inv_big q : / big <= q -> 8 * tiny <= ulp1 * q.
Proof.
  intros H. pose proof big_pos. pose proof tiny_big. pose proof ulp1_val. assert (0 < / big) by (apply Rinv_0_lt_compat; lra).
  apply Rle_trans with (ulp1 * / big); [|apply Rmult_le_compat_l; lra]. apply (Rmult_le_reg_r big); [lra|]. replace (ulp1 * / big * big) with ulp1 by (field; lra). lra.
Qed.

(** *** beta *)
Lemma beta_trip64 p a b q : incbeta_acc F e -> incbeta_inv_acc F e -> prob p -> bpos a -> bpos b -> 1 <= B2R b -> / big <= q <= 1 - 3 * e -> beta_cdf (B2R a) (B2R b) q = B2R p ->
  near (e + 2 * B2R a * e) tiny (pbeta (N:=NB) (qbeta (N:=NB) p a b) a b false) (B2R p).
Proof.
  intros HB HBI O Pa Pb Hb1 Hq Eq. setup0. pose proof Pa as [_ Pa']. 
  destruct (near_rel' _ _ _ _ (qbeta_acc F e p a b q HBI O Pa Pb ltac:(lra) Eq) ltac:(lra) ltac:(apply tiny_inv_big; lra) ltac:(lra)) as (Fx & t & T & Ex). set (x := qbeta (N:=NB) p a b) in *.
  pose proof (exp_abs' t _ T ltac:(lra)) as X. apply Rabs_le_inv in X.
  assert (X1 : 0 < q * exp t < 1). { pose proof (exp_pos t). split; [apply Rmult_lt_0_compat; lra|]. apply Rle_lt_trans with ((1 - 3 * e) * (1 + 202 / 100 * e)); [apply Rmult_le_compat; [lra|lra|lra|lra]|]. replace ((1 - 3 * e) * (1 + 202 / 100 * e)) with (1 - 98 / 100 * e - 606 / 100 * (e * e)) by field. assert (0 < e * e) by (apply Rmult_lt_0_compat; lra). lra. }
  pose proof (pbeta_acc F e x a b HB Fx ltac:(rewrite Ex; exact X1) Pa Pb) as N.
  destruct (beta_shift (B2R a) (B2R b) q t Pa' Hb1 ltac:(lra) (proj2 X1)) as (u & Hu & Eu). unfold beta_cdf in *. rewrite Ex, Eu, Eq in N.
  eapply near_le; [exact (near_shift _ _ _ _ _ _ u N eq_refl Hu)| |lra].
  assert (B2R a * Rabs t <= B2R a * (2 * e)) by (apply Rmult_le_compat_l; lra). lra.
Qed.
(** *** inverse gamma *)
Lemma invgamma_trip64 p shape rate q : incgamma_acc F e -> incgamma_inv_acc F e -> prob p -> / 2 <= B2R p -> bpos shape -> bpos rate -> B2R shape <= 1000000 -> B2R shape * e <= / 1000 ->
  / big <= q <= IZR (2 ^ 50) -> / big <= B2R rate <= IZR (2 ^ 51) -> invgamma_cdf (B2R shape) (B2R rate) q = B2R p ->
  within (4 * e + 10 * B2R shape * e) (pinvgamma (N:=NB) (qinvgamma (N:=NB) p shape rate) shape rate false) (B2R p).
Proof.
  intros HG HGI O Hp Psh Pr Hs He' Hq Hr Eq. setup0. pose proof Psh as [_ Ps']. pose proof Pr as [Fr Pr']. revert Hq Hr. change (IZR (2 ^ 50)) with 1125899906842624. change (IZR (2 ^ 51)) with 2251799813685248. intros Hq Hr.
  assert (Iq : / 1125899906842624 <= / q <= big). { split; [apply Rinv_le_contravar; lra|]. rewrite <- (Rinv_inv big). apply Rinv_le_contravar; lra. }
  assert (Rq : / big * / 1125899906842624 <= B2R rate / q <= 2251799813685248 * big) by (unfold Rdiv; split; apply Rmult_le_compat; lra).
  assert (HL : 4 * / huge <= / big * / 1125899906842624).
  { change 1125899906842624 with (bpow radix2 50). unfold big, huge. rewrite <- !bpow_opp, <- bpow_plus. apply Rle_trans with (bpow radix2 2 * bpow radix2 (-1000)); [apply Rmult_le_compat_r; [apply bpow_ge_0|cbn; lra]|]. rewrite <- bpow_plus. apply bpow_le. lia. }
  destruct (near_rel' _ _ _ _ (qinvgamma_acc F e He p shape rate q HGI O Hp Psh Pr ltac:(lra) ltac:(lra) Eq) ltac:(lra) ltac:(apply tiny_inv_big; lra) ltac:(lra)) as (Fx & t & T & Ex). set (x := qinvgamma (N:=NB) p shape rate) in *.
  pose proof (exp_box q t _ T ltac:(lra) ltac:(lra)) as XB. rewrite <- Ex in XB. pose proof (exp_pos t) as Pt.
  assert (Er : B2R rate / B2R x = B2R rate / q * exp (- t)) by (rewrite Ex, exp_Ropp; field; lra).
  pose proof (exp_box (B2R rate / q) (- t) (e + 2 * ulp1 + ulp1) ltac:(rewrite Rabs_Ropp; exact T) ltac:(lra) ltac:(lra)) as RB. rewrite <- Er in RB.
  assert (W : within (4 * e + 7 * B2R shape * ulp1) (pinvgamma (N:=NB) x shape rate false) (invgamma_cdf (B2R shape) (B2R rate) (B2R x))).
  { apply (pinvgamma_acc F e He x shape rate HG Fx Psh Fr Hs); change (IZR (2 ^ 51)) with 2251799813685248; try lra. }
  destruct (cond_PG (B2R shape) (B2R rate / q) (- t) Ps' ltac:(lra)) as (u & Hu & Eu). unfold invgamma_cdf in *. rewrite Er, Eu in W.
  assert (S1 : B2R shape * Rabs (- t) <= 4 * (B2R shape * e)) by (rewrite Rabs_Ropp; replace (4 * (B2R shape * e)) with (B2R shape * (4 * e)) by ring; apply Rmult_le_compat_l; lra).
  pose proof (exp_abs' u _ (Rle_trans _ _ _ Hu S1) ltac:(lra)) as XU. pose proof O as [_ Rp].
  assert (T' : Rabs (1 - PG (B2R shape) (B2R rate / q) * exp u - B2R p) <= 101 / 100 * (4 * (B2R shape * e)) * / 2).
  { replace (1 - PG (B2R shape) (B2R rate / q) * exp u - B2R p) with (- ((1 - B2R p) * (exp u - 1))) by (rewrite <- Eq; ring). rewrite Rabs_Ropp, Rabs_mult, (Rabs_pos_eq (1 - B2R p)) by lra. rewrite Rmult_comm. apply Rmult_le_compat; try lra. apply Rabs_pos. }
  eapply within_le; [exact (within_tri _ _ _ _ _ W T')|]. assert (B2R shape * ulp1 <= B2R shape * e) by (apply Rmult_le_compat_l; lra). assert (0 <= B2R shape * e) by (apply Rmult_le_pos; lra). lra.
Qed.
(** *** log-normal *)
Lemma lnorm_trip64 p mu sigma : exp_all_acc F e -> log_acc F e -> const_acc e (t_SQRT_2 F) (R_sqrt.sqrt 2) -> erf_acc F e -> erf_inv_acc F e -> prob p -> B2R (bsub (bmul (bofZ 2) p) (bofZ 1)) = 2 * B2R p - 1 ->
  usual mu sigma -> Rabs (B2R mu) + 10 * B2R sigma <= 30 ->
  within (20 * e + 5 * e * ((1 + Rabs (B2R mu)) / B2R sigma)) (plnorm (N:=NB) (qlnorm (N:=NB) p mu sigma) mu sigma false) (B2R p).
Proof.
  intros HX HL C E EI O Hp U HM. destruct (norm_q p mu sigma O Hp U) as (z & Ez & Hz). destruct (usual_bounds _ _ U) as (Fm & Ps & I & Hm & Hs & Hh & Ho). setup0. pose proof Ps as [_ Ps'].
  pose proof (Rabs_pos (z - B2R mu)). pose proof (Rabs_pos (B2R mu)). set (s := B2R sigma) in *. set (m := Rabs (B2R mu)) in *. set (K := Rabs (z - B2R mu)) in *.
  assert (Zb : Rabs z <= 30). { replace z with (z - B2R mu + B2R mu) by ring. eapply Rle_trans; [apply Rabs_triang|]. fold K m. lra. }
  set (q := exp z). assert (Lq : ln q = z) by apply ln_exp. assert (Q0 : 0 < q) by apply exp_pos.
  assert (Qb : 2 * ulp1 <= q <= 1000000000000000000).
  { apply Rabs_le_inv in Zb. assert (X : exp 30 <= 205891132094649). { pose proof (exp_nat 30) as Q. change (INR 30) with (IZR 30) in Q || (replace (INR 30) with 30 in Q by (cbn; lra)). eapply Rle_trans; [exact Q|]. lra. }
    assert (Y : exp z <= exp 30) by (destruct (Req_dec z 30) as [->|]; [lra|left; apply exp_increasing; lra]).
    assert (Y2 : exp (- 30) <= exp z) by (destruct (Req_dec z (- 30)) as [->|]; [lra|left; apply exp_increasing; lra]).
    assert (Y3 : / 205891132094649 <= exp (- 30)) by (change (-30) with (Ropp 30); rewrite exp_Ropp; apply Rinv_le_contravar; [apply exp_pos|lra]). unfold q. rewrite U1. lra. }
  assert (Eq : lnorm_cdf (B2R mu) s q = B2R p) by (unfold lnorm_cdf; rewrite Lq; exact Ez).
  assert (TS : (2 + 2 * s) * tiny <= 10 * (ulp1 / 1000000)) by (apply Rle_trans with (10 * tiny); [apply Rmult_le_compat_r; lra|lra]).
  assert (EK : e * (m + K) <= 34 * e) by (rewrite Rmult_comm; apply Rmult_le_compat_r; lra).
  pose proof (qlnorm_acc F e He p mu sigma q HX C EI O Hp Fm Ps Hh ltac:(lra) Eq ltac:(rewrite Lq; fold m K s; lra)) as N. rewrite Lq in N. fold m K s in N.
  assert (EM : 0 <= e * (m + K)) by (apply Rmult_le_pos; lra). assert (TS0 : 0 <= (2 + 2 * s) * tiny) by (apply Rmult_le_pos; lra).
  destruct (near_rel' _ _ _ _ N) as (Fx & t & T & Ex); [lra| |lra|].
  { pose proof (tiny_abs 0 q ltac:(lra) ltac:(lra)). lra. }
  set (x := qlnorm (N:=NB) p mu sigma) in *. pose proof (exp_box q t _ T ltac:(lra) ltac:(lra)) as XB. rewrite <- Ex in XB.
  assert (Lx : ln (B2R x) = z + t) by (rewrite Ex, ln_mult, ln_exp, Lq; auto using exp_pos).
  assert (MS : (m + 2000) / s <= huge). { unfold Rdiv. apply Rle_trans with (3000 * big); [apply Rmult_le_compat; lra|lra]. }
  pose proof (plnorm_acc F e He x mu sigma C E HL (is_big x Fx ltac:(lra)) Fm Ps ltac:(fold m; lra) MS) as W. fold m s in W. unfold lnorm_cdf in W. rewrite Lx in W.
  pose proof (norm_trip (B2R mu) s z (z + t) (8 * e) (3 * e + 8 * e * m) Ps' ltac:(lra) ltac:(assert (0 <= e * m) by (apply Rmult_le_pos; lra); lra) ltac:(replace (z + t - z) with t by ring; fold K; lra)) as T2. rewrite Ez in T2.
  eapply within_le; [exact (within_tri _ _ _ _ _ W T2)|].
  assert (At : Rabs (z + t) <= K + m + / 100). { replace (z + t) with ((z - B2R mu) + B2R mu + t) by ring. eapply Rle_trans; [apply Rabs_triang|]. apply Rplus_le_compat; [apply Rabs_triang|lra]. }
  assert (Ks : K * / s <= 10). { apply (Rmult_le_reg_r s); auto. rewrite Rmult_assoc, Rinv_l by lra. lra. }
  assert (A1 : e * Rabs (z + t) + tiny <= e * K + e * m + e / 50) by (assert (e * Rabs (z + t) <= e * (K + m + / 100)) by (apply Rmult_le_compat_l; lra); lra).
  assert (A2 : (e * Rabs (z + t) + tiny) / s <= e * (K * / s) + (e * m + e / 50) * / s). { unfold Rdiv. replace (e * (K * / s) + (e * m + e * / 50) * / s) with ((e * K + e * m + e / 50) * / s) by (field; lra). apply Rmult_le_compat_r; lra. }
  assert (A3 : e * (K * / s) <= e * 10) by (apply Rmult_le_compat_l; lra).
  replace ((3 * e + 8 * e * m) / s) with (3 * (e * / s) + 8 * (e * m * / s)) by (field; lra). replace ((1 + m) / s) with (/ s + m * / s) by (field; lra).
  replace ((e * m + e / 50) * / s) with (e * m * / s + e * / s / 50) in A2 by (field; lra). assert (0 <= e * / s) by (apply Rmult_le_pos; lra). assert (0 <= e * m * / s) by (apply Rmult_le_pos; [apply Rmult_le_pos|]; lra). lra.
Qed.
(** *** Student, two degrees of freedom *)
Lemma pt2_acc x : bfin x -> Rabs (B2R x) <= big -> within (6 * ulp1) (pt (N:=NB) x (bofZ 2) false) (t_cdf 2 (B2R x)).
Proof.
  intros Fx Hx. setup0. pose proof big_big as BB. revert BB. change (IZR (2 ^ 100)) with 1267650600228229401496703205376. intros BB. destruct (bofZ_R 2 ltac:(sm)) as [A2 F2].
  set (r := B2R x) in *. pose proof (Rabs_pos r).
  assert (S : pt (N:=NB) x (bofZ 2) false = badd (blit (1#2)) (bdiv x (bmul (bofZ 2) (Bsqrt mode_NE (badd (bmul x x) (bofZ 2)))))).
  { unfold pt, t_sanity2. rewrite (nan_nn F x) by (now apply nn_fin). change (t_sanity1 (N:=NB) (bofZ 2)) with true. cbn [negb andb]. rewrite posinf_fin, neginf_fin by auto. reflexivity. }
  rewrite S, <- t_cdf_2. assert (R2 : r * r <= big * big) by (rewrite <- (Rabs_pos_eq (r * r)), Rabs_mult by nra; apply Rmult_le_compat; lra). assert (R0 : 0 <= r * r) by nra.
  pose proof (near_within _ _ _ _ (near_mul0 x x Fx Fx ltac:(fold r; rewrite Rabs_pos_eq; lra)) ltac:(lra)) as [Fm Dm]. fold r in Dm. rewrite (Rabs_pos_eq (r * r)) in Dm by auto.
  set (v := r * r + 2) in *. assert (V : 2 <= v) by (unfold v; lra).
  assert (Nv : near (3 * ulp1) 0 (badd (bmul x x) (bofZ 2)) v).
  { pose proof (near_add (bmul x x) (bofZ 2) Fm F2) as Na. rewrite A2 in Na.
    assert (D : Rabs ((B2R (bmul x x) + 2 - v) / v) <= 102 / 100 * ulp1).
    { unfold Rdiv. rewrite Rabs_mult, Rabs_inv, (Rabs_pos_eq v) by lra. apply (Rmult_le_reg_r v); [lra|]. rewrite Rmult_assoc, Rinv_l, Rmult_1_r by lra.
      replace (B2R (bmul x x) + 2 - v) with (B2R (bmul x x) - r * r) by (unfold v; ring). eapply Rle_trans; [exact Dm|]. unfold v. assert (0 <= ulp1 * (r * r)) by (apply Rmult_le_pos; lra). lra. }
    pose proof (ln_1p _ (Rle_trans _ _ (/ 100) D ltac:(lra))) as L. apply Rabs_le_inv in D as D'.
    destruct Na as (Fa & t & s & T & Su & Ea). { apply Rabs_le_inv in Dm. assert (ulp1 * (r * r) <= 1 * (r * r)) by (apply Rmult_le_compat_r; lra). apply Rabs_le. lra. }
    apply abs_le0 in Su. subst s. split; auto. exists (ln (1 + (B2R (bmul x x) + 2 - v) / v) + t), 0. split; [|split; [rewrite Rabs_R0; lra|]].
    - eapply Rle_trans; [apply Rabs_triang|]. nra.
    - rewrite Ea, exp_plus, exp_ln by lra. field. lra. }
  pose proof (sqrt_near e He _ _ _ Nv ltac:(lra) ltac:(split; [lra|unfold v; lra])) as Ns. set (w := R_sqrt.sqrt v) in *.
  assert (W1 : 1 <= w) by (unfold w; rewrite <- sqrt_1; apply sqrt_le_1; lra). assert (Wv : w * w = v) by (apply sqrt_sqrt; lra).
  assert (Wb : w <= 2 * big). { apply Rsqr_incr_0_var; [|lra]. unfold Rsqr. rewrite Wv. unfold v. nra. }
  assert (Nd : near (0 + (3 * ulp1 / 2 + 2 * ulp1) + ulp1 + ulp1) 0 (bmul (bofZ 2) (Bsqrt mode_NE (badd (bmul x x) (bofZ 2)))) (2 * w)).
  { apply near_rel with (h := 2 * 0 + tiny); [|lra|rewrite Rabs_pos_eq; nra]. apply (near_mul 0 0 _ 0); auto; try lra; [now apply near_Z|rewrite Rabs_pos_eq; lra]. }
  assert (Rw : Rabs (r / (2 * w)) <= / 2).
  { unfold Rdiv. rewrite Rabs_mult, Rabs_inv, (Rabs_pos_eq (2 * w)) by lra. apply (Rmult_le_reg_r (2 * w)); [lra|]. rewrite Rmult_assoc, Rinv_l by lra.
    assert (Rabs r <= w). { unfold w. rewrite <- sqrt_Rsqr_abs. apply sqrt_le_1; unfold Rsqr; unfold v in *; lra. } lra. }
  assert (Nq : near (0 + (0 + (3 * ulp1 / 2 + 2 * ulp1) + ulp1 + ulp1) + ulp1) (2 * 0 + tiny) (bdiv x (bmul (bofZ 2) (Bsqrt mode_NE (badd (bmul x x) (bofZ 2))))) (r / (2 * w))).
  { apply (near_div 0 0 _ 0); auto; try lra; try (unfold Rdiv; lra). now apply near_exact. }
  pose proof (near_within _ _ _ _ Nq ltac:(lra)) as Wq0. set (g := r / (2 * w)) in *. assert (Wq : within (34 / 10 * ulp1) (bdiv x (bmul (bofZ 2) (Bsqrt mode_NE (badd (bmul x x) (bofZ 2))))) g).
  { eapply within_le; [exact Wq0|]. pose proof (Rabs_pos g). assert (ulp1 * Rabs g <= ulp1 * / 2) by (apply Rmult_le_compat_l; lra). lra. }
  assert (Fh : bfin (blit (1#2))) by reflexivity. assert (Rh : B2R (blit (1#2)) = 1 / 2) by (vm_compute; lra).
  pose proof (within_exact _ Fh) as Wh. rewrite Rh in Wh. apply Rabs_le_inv in Rw as Rw'.
  eapply within_le; [apply (within_add _ _ _ _ _ _ 1 Wh Wq); [apply Rabs_le; lra|lra|lra]|]. lra.
Qed.
Lemma t2_trip64 p q : prob p -> / huge <= B2R p -> t_cdf 2 q = B2R p -> Rabs q <= big / 2 -> within (11 * ulp1) (pt (N:=NB) (qt (N:=NB) p (bofZ 2)) (bofZ 2) false) (B2R p).
Proof.
  intros O Hp Eq Hq. setup0. pose proof (Rabs_pos q). destruct (near_within _ _ _ _ (qt2_acc F e He p q O Hp Eq ltac:(lra)) ltac:(lra)) as [Fx Dx]. set (x := qt (N:=NB) p (bofZ 2)) in *.
  assert (Xb : Rabs (B2R x) <= big). { replace (B2R x) with ((B2R x - q) + q) by ring. eapply Rle_trans; [apply Rabs_triang|]. nra. }
  pose proof (pt2_acc x Fx Xb) as W. rewrite <- t_cdf_2 in W, Eq.
  pose proof (t2_trip q (B2R x) (101 / 100 * (8 * ulp1)) tiny ltac:(lra) ltac:(lra) Dx) as T. unfold t2_cdf in T. rewrite Eq in T.
  eapply within_le; [exact (within_tri _ _ _ _ _ W T)|]. lra.
Qed.
End Trip3.
