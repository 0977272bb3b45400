(** Accuracy of the densities in double precision: Weibull and inverse Gaussian. *)
From Coq Require Import ZArith QArith Reals Bool Lra Lia.
From Verif Require Import Erf GammaFn BetaFn NormR Discrete Spec SpecSF.
From Verif Require Import Num Sanity Prob Dens B64 SpecB64 SpecB64D SpecAcc SpecAccD B64R B64Ord B64Cdf B64Cdf2 B64Cdf3 B64Mag B64Dens B64Dens2 B64Dens3 B64Dens4 B64Dens5 B64CR B64Acc B64AccCdf B64AccCdf3 B64AccW B64AccLog B64AccDens B64AccDens2 B64AccDens3 B64AccDens4 B64AccDens5.
From Flocq Require Import Core IEEE754.BinarySingleNaN.
Local Open Scope R_scope.
Notation exp := Rtrigo_def.exp.
Section D.
Variable F : TF.
Notation NB := (B64_Num F).
Variable e : R.
Hypothesis He : unit_ok e.
Notation acc := (acc e).
Lemma quot_mid x y : finite x -> B2R y <> 0 -> mid (B2R x / B2R y) -> near (2 * e) 0 (bdiv x y) (B2R x / B2R y).
Proof.
  intros Fx Hy [M1 M2]. pose proof huge_2. replace 2 with (1 + 1) by lra. apply (norm_s e He); try lra. apply (near1 e He). apply near_div0; auto. lra.
Qed.
Lemma mid_ln r : 0 < r -> mid r -> Rabs (ln r) <= huge / 4.
Proof.
  intros P [M1 M2]. rewrite Rabs_pos_eq in M1, M2 by lra. pose proof huge_2 as H2. assert (L : ln huge <= 1101). { unfold huge. rewrite ln_bpow. pose proof ln2_01. lra. }
  apply Rabs_le. split.
  - apply Rle_trans with (ln (/ huge)); [rewrite ln_Rinv by lra; lra|apply ln_mono; [apply Rinv_0_lt_compat|]; lra].
  - apply Rle_trans with (ln huge); [apply ln_mono|]; lra.
Qed.
(** *** Weibull *)
Lemma ln_weibull_pdf k th x : 0 < k -> 0 < th -> 0 < x -> ln (weibull_pdf k th x) = ln (k / th) + (k - 1) * ln (x / th) - Rpower (x / th) k /\ 0 < weibull_pdf k th x.
Proof.
  intros Hk Ht Hx. assert (P : 0 < k / th) by (apply Rdiv_lt_0_compat; auto).
  assert (E : weibull_pdf k th x = exp (ln (k / th) + (k - 1) * ln (x / th) - Rpower (x / th) k)). { unfold weibull_pdf, Rminus. rewrite !exp_plus, exp_ln by auto. reflexivity. }
  rewrite E. split; [apply ln_exp|apply exp_pos].
Qed.
Lemma dweibull_fin x shape scale lf : bpos x -> finite shape -> finite scale -> Bleb beps shape = true -> Bleb beps scale = true -> dweibull (N:=NB) x shape scale lf =
  exp_if (N:=NB) (bsub (badd (t_log F (bdiv shape scale)) (bmul (bsub shape (bofZ 1)) (t_log F (bdiv x scale)))) (t_pow F (bdiv x scale) shape)) (negb lf).
Proof.
  intros Px Fk Ft Hk Ht. pose proof Px as [Fx Px']. unfold dweibull, weibull_sanity3, weibull_sanity2, any_nan2. rewrite (nan_nn F x), (nan_nn F shape), (nan_nn F scale) by now apply nn_fin. cbn [negb andb orb].
  change (ltb shape epsilon) with (Bltb shape beps). change (ltb scale epsilon) with (Bltb scale beps).
  assert (E1 : Bltb shape beps = false) by (apply leb_ev in Hk; apply ltb_ev_f; tauto). assert (E2 : Bltb scale beps = false) by (apply leb_ev in Ht; apply ltb_ev_f; tauto). rewrite E1, E2. cbn [negb].
  change (ltb x (ofZ 0)) with (Bltb x (bofZ 0)). change (eqb x (ofZ 0)) with (Beqb x (bofZ 0)). rewrite lt0_f by (auto; lra). rewrite eq0_f by auto. cbn [andb]. rewrite posinf_fin by auto. reflexivity.
Qed.
Lemma pow_term z z0 k : pow_acc F e -> near (2 * e) 0 z z0 -> 0 < z0 -> finite k -> 0 < B2R k -> B2R k * e <= / 1000 -> Rpower z0 (B2R k) <= huge / 8 -> 1 + (1 + B2R k) * Rpower z0 (B2R k) <= huge ->
  acc 3 (1 + (1 + B2R k) * Rpower z0 (B2R k)) (t_pow F z k) (Rpower z0 (B2R k)).
Proof.
  intros PA (Fz & u & s & U & Hs & E) P Fk Pk Kb B1 B2. apply abs_le0 in Hs. subst s. rewrite Rplus_0_r in E. destruct (e_r e He) as (U1 & U2 & U3 & U4). pose proof huge_2 as H2.
  assert (Pz : 0 < B2R z) by (rewrite E; apply Rmult_lt_0_compat; [auto|apply exp_pos]). set (k0 := B2R k) in *. set (w := Rpower z0 k0) in *. assert (Pw : 0 < w) by apply exp_pos.
  assert (EP : Rpower (B2R z) k0 = w * exp (k0 * u)). { unfold w, Rpower. rewrite E, ln_mult, ln_exp by (auto; apply exp_pos). rewrite <- exp_plus. f_equal. ring. }
  assert (KU : Rabs (k0 * u) <= 2 * (k0 * e)). { rewrite Rabs_mult, (Rabs_pos_eq k0) by lra. replace (2 * (k0 * e)) with (k0 * (2 * e)) by ring. apply Rmult_le_compat_l; lra. }
  destruct (exp_2 (k0 * u) (2 * (k0 * e)) KU ltac:(lra)) as [X1 X2].
  destruct (PA k Fk z Fz) as (Fy & t & s & T & Hs & EY). { split; [exact Pz|]. fold k0. rewrite EP. apply Rle_trans with (huge / 8 * 2); [apply Rmult_le_compat; lra|lra]. }
  fold k0 in EY. rewrite EP in EY.
  assert (N : near (e + 2 * (k0 * e)) tiny (t_pow F z k) w). { split; [exact Fy|]. exists (k0 * u + t), s. split; [eapply Rle_trans; [apply Rabs_triang|]; lra|]. split; [exact Hs|]. rewrite EY, exp_plus. ring. }
  destruct (near_within _ _ _ _ N ltac:(lra)) as [_ W]. rewrite (Rabs_pos_eq w) in W by lra. assert (KW : 0 <= k0 * w) by (apply Rmult_le_pos; lra).
  split; [exact Fy|]. split; [|split; [rewrite Rabs_pos_eq; lra|lra]]. eapply Rle_trans; [exact W|]. assert (0 <= e * w) by (apply Rmult_le_pos; lra). assert (0 <= e * (k0 * w)) by (apply Rmult_le_pos; lra).
  replace (101 / 100 * (e + 2 * (k0 * e)) * w) with (101 / 100 * (e * w) + 202 / 100 * (e * (k0 * w))) by field. replace (3 * (e * (1 + (1 + k0) * w))) with (3 * e + 3 * (e * w) + 3 * (e * (k0 * w))) by ring. lra.
Qed.
Lemma dweibull_acc x shape scale : pow_acc F e -> log_acc F e -> exp_up_acc F e -> bpos x -> finite shape -> finite scale -> Bleb beps shape = true -> Bleb beps scale = true ->
  mid (B2R shape / B2R scale) -> mid (B2R x / B2R scale) -> B2R shape * e <= / 1000 ->
  let z := B2R x / B2R scale in
  let S := 3 + Rabs (ln (B2R shape / B2R scale)) + Rabs (B2R shape - 1) * (1 + Rabs (ln z)) + (1 + B2R shape) * Rpower z (B2R shape) in
  S <= huge / 8 -> density_acc e 13 S (dweibull (N:=NB) x shape scale) (weibull_pdf (B2R shape) (B2R scale) (B2R x)).
Proof.
  intros PA L X Px Fk Ft Hk Ht M1 M2 Kb z S HS. pose proof huge_2 as H2. pose proof Px as [Fx Px']. destruct eps_R as [Eb Fb]. pose proof ulp1_val as UV. destruct (e_r e He) as (U1 & U2 & U3 & U4).
  assert (Pk : ulp1 <= B2R shape) by (apply leb_ev in Hk; destruct Hk as (_ & _ & Hk); rewrite !ev_fin in Hk by auto; lra).
  assert (Pt : ulp1 <= B2R scale) by (apply leb_ev in Ht; destruct Ht as (_ & _ & Ht); rewrite !ev_fin in Ht by auto; lra).
  destruct (ln_weibull_pdf (B2R shape) (B2R scale) (B2R x) ltac:(lra) ltac:(lra) Px') as [EL EP].
  eapply acc_dens; [exact X| |lra|exact EP|rewrite dweibull_fin by auto; cbn [exp_if negb]; reflexivity|now rewrite dweibull_fin by auto]. rewrite EL. clear EL EP. fold z.
  assert (Pz : 0 < z) by (unfold z; apply Rdiv_lt_0_compat; lra). assert (Pq : 0 < B2R shape / B2R scale) by (apply Rdiv_lt_0_compat; lra).
  pose proof (quot_mid shape scale Fk ltac:(lra) M1) as N1. pose proof (quot_mid x scale Fx ltac:(lra) M2) as N2. fold z in N2, M2. pose proof (mid_ln _ Pq M1) as LB1. pose proof (mid_ln _ Pz M2) as LB2.
  set (q := B2R shape / B2R scale) in *. pose proof (Rabs_pos (ln q)) as Q1. pose proof (Rabs_pos (ln z)) as Q2. pose proof (Rabs_pos (B2R shape - 1)) as Q3. pose proof (exp_pos (B2R shape * ln z)) as Pw. fold (Rpower z (B2R shape)) in Pw.
  set (w := Rpower z (B2R shape)) in *. set (a2 := Rabs (B2R shape - 1) * (1 + Rabs (ln z))) in *. set (a3 := (1 + B2R shape) * w) in *. assert (P2 : 0 <= a2) by (unfold a2; apply Rmult_le_pos; lra). assert (P3 : w <= a3) by (unfold a3; nra). unfold S in HS.
  assert (M3 : Rabs (B2R shape - 1) <= a2). { unfold a2. rewrite <- (Rmult_1_r (Rabs (B2R shape - 1))) at 1. apply Rmult_le_compat_l; lra. }
  assert (A1 : acc 9 (1 + Rabs (ln q)) (t_log F (bdiv shape scale)) (ln q)).
  { apply (acc_le e He (2 + 3) (1 + Rabs (ln q))); try lra. apply (acc_log F e He 2); auto; lra. }
  assert (A2 : acc 9 (1 + a2) (bmul (bsub shape (bofZ 1)) (t_log F (bdiv x scale))) ((B2R shape - 1) * ln z)).
  { replace 9 with ((2 + 3) + 2 * 1 + 2) by lra. apply (acc_mul e He (2 + 3) 1 (1 + Rabs (ln z)) (1 + a2)); try lra; [apply (near_m1 e He); auto; lra|apply (acc_log F e He 2); auto; lra|fold a2; lra]. }
  assert (A3 : acc 11 (1 + a3) (t_pow F (bdiv x scale) shape) w).
  { apply (acc_le e He 3 (1 + a3)); try lra. apply (pow_term (bdiv x scale) z shape); auto; try lra; [fold w; lra|fold w; fold a3; lra]. }
  replace 13 with (11 + 2) by lra. replace S with (((1 + Rabs (ln q)) + (1 + a2)) + (1 + a3)) by (unfold S; ring). apply (acc_sub e He 11); auto; try lra. replace 11 with (9 + 2) by lra. apply (acc_add e He 9); auto; lra.
Qed.
(** *** inverse Gaussian *)
Lemma ln_invgauss_pdf mu l x : 0 < mu -> 0 < l -> 0 < x -> ln (invgauss_pdf mu l x) = - / 2 * (ln (2 * Rtrigo1.PI) + 3 * ln x - ln l) + - l * ((x - mu) * (x - mu)) / (2 * mu * mu * x) /\ 0 < invgauss_pdf mu l x.
Proof.
  intros Hm Hl Hx. pose proof PI_RGT_0 as P. assert (P2 : 0 < 2 * Rtrigo1.PI) by lra. assert (X3 : 0 < Rpow_def.pow x 3) by now apply pow_lt. assert (PX : 0 < 2 * Rtrigo1.PI * Rpow_def.pow x 3) by now apply Rmult_lt_0_compat.
  assert (PQ : 0 < l / (2 * Rtrigo1.PI * Rpow_def.pow x 3)) by now apply Rdiv_lt_0_compat.
  assert (E : invgauss_pdf mu l x = exp (- / 2 * (ln (2 * Rtrigo1.PI) + 3 * ln x - ln l) + - l * ((x - mu) * (x - mu)) / (2 * mu * mu * x))).
  { unfold invgauss_pdf. rewrite exp_plus. f_equal; [|f_equal; field; lra]. rewrite <- Rpower_sqrt by exact PQ. unfold Rpower. f_equal. unfold Rdiv. rewrite ln_mult, ln_Rinv, ln_mult by (auto; now apply Rinv_0_lt_compat). rewrite (ln_pow x Hx 3). cbn [INR]. lra. }
  rewrite E. split; [apply ln_exp|apply exp_pos].
Qed.
Lemma mul_sz k1 k2 x y a b : near (k1 * e) 0 x a -> near (k2 * e) 0 y b -> 0 <= k1 <= 100 -> 0 <= k2 <= 100 -> mid0 (a * b) -> near ((k1 + k2 + 2) * e) 0 (bmul x y) (a * b).
Proof.
  intros N1 N2 K1 K2 [Z | M]; [|now apply (mul_s e He)].
  destruct N1 as (Fx & t & s & T & Hs & E1), N2 as (Fy & u & w & U & Hw & E2). apply abs_le0 in Hs. apply abs_le0 in Hw. subst s w. rewrite Rplus_0_r in E1, E2.
  assert (P0 : B2R x * B2R y = 0). { rewrite E1, E2. replace (a * exp t * (b * exp u)) with (a * b * (exp t * exp u)) by ring. rewrite Z. ring. }
  destruct (bmul_R x y Fx Fy) as [A B]. { rewrite P0, rnd_0, Rabs_R0. pose proof huge_2. lra. }
  split; [exact B|]. exists 0, 0. rewrite A, P0, rnd_0, Z, Rabs_R0. destruct (e_r e He) as (U1 & U2 & U3 & U4). split; [apply Rmult_le_pos; lra|]. split; lra.
Qed.
Lemma dinvgauss_fin x mu l lf : bpos x -> bpos mu -> bpos l -> dinvgauss (N:=NB) x mu l lf =
  exp_if (N:=NB) (badd (bmul (Bopp (blit (1#2))) (bsub (badd (t_LOG_2PI F) (bmul (bofZ 3) (t_log F x))) (t_log F l)))
     (bdiv (bmul (Bopp l) (bmul (bsub x mu) (bsub x mu))) (bmul (bmul (bmul (bofZ 2) mu) mu) x))) (negb lf).
Proof.
  intros Px Pm Pl. pose proof Px as [Fx Px']. pose proof Pm as [Fm Pm']. pose proof Pl as [Fl Pl'].
  unfold dinvgauss, invgauss_sanity3, invgauss_sanity2, any_nan2. rewrite (nan_nn F x), (nan_nn F mu), (nan_nn F l) by now apply nn_fin. cbn [negb andb orb].
  change (ltb mu (ofZ 0)) with (Bltb mu (bofZ 0)). change (ltb l (ofZ 0)) with (Bltb l (bofZ 0)). change (ltb x (ofZ 0)) with (Bltb x (bofZ 0)). rewrite !lt0_f by (auto; lra). cbn [negb].
  unfold any_inf3. rewrite !inf_fin by auto. change (eqb x (ofZ 0)) with (Beqb x (bofZ 0)). change (eqb l (ofZ 0)) with (Beqb l (bofZ 0)). rewrite !eq0_f by auto. reflexivity.
Qed.
Lemma dinvgauss_acc x mu l : const_acc e (t_LOG_2PI F) (ln (2 * Rtrigo1.PI)) -> log_acc F e -> exp_up_acc F e -> bpos x -> bpos mu -> bpos l ->
  mid0 ((B2R x - B2R mu) * (B2R x - B2R mu)) -> mid0 (- B2R l * ((B2R x - B2R mu) * (B2R x - B2R mu))) -> mid (2 * B2R mu) -> mid (2 * B2R mu * B2R mu) -> mid (2 * B2R mu * B2R mu * B2R x) ->
  let q := B2R l * ((B2R x - B2R mu) * (B2R x - B2R mu)) / (2 * B2R mu * B2R mu * B2R x) in
  let S := 5 + 2 * Rabs (ln (B2R x)) + Rabs (ln (B2R l)) + q in
  S <= huge / 4 -> density_acc e 16 S (dinvgauss (N:=NB) x mu l) (invgauss_pdf (B2R mu) (B2R l) (B2R x)).
Proof.
  intros C L X Px Pm Pl M1 M2 M3 M4 M5 q S HS. pose proof huge_2 as H2. pose proof Px as [Fx Px']. pose proof Pm as [Fm Pm']. pose proof Pl as [Fl Pl']. destruct (e_r e He) as (U1 & U2 & U3 & U4).
  destruct (ln_invgauss_pdf (B2R mu) (B2R l) (B2R x) Pm' Pl' Px') as [EL EP].
  eapply acc_dens; [exact X| |lra|exact EP|rewrite dinvgauss_fin by auto; cbn [exp_if negb]; reflexivity|now rewrite dinvgauss_fin by auto]. rewrite EL. clear EL EP.
  assert (D1 : Rabs (B2R x - B2R mu) <= 4 * huge).
  { destruct (Rle_dec (Rabs (B2R x - B2R mu)) huge) as [Q|Q]; [lra|]. exfalso. assert (1 * huge < Rabs (B2R x - B2R mu) * Rabs (B2R x - B2R mu)) by (apply Rmult_le_0_lt_compat; lra). rewrite <- Rabs_mult in H. destruct M1 as [Z | [_ M1]]; [rewrite Z, Rabs_R0 in H; lra|lra]. }
  pose proof (near1 e He _ _ _ (near_sub x mu Fx Fm D1)) as N1. set (d := B2R x - B2R mu) in *.
  pose proof (mul_sz 1 1 _ _ _ _ N1 N1 ltac:(lra) ltac:(lra) M1) as N2.
  assert (NL : near (0 * e) 0 (Bopp l) (- B2R l)). { rewrite Rmult_0_l. apply near_opp. now apply near_exact. }
  pose proof (mul_sz 0 (1 + 1 + 2) _ _ _ _ NL N2 ltac:(lra) ltac:(lra) M2) as N3.
  pose proof (mul_s e He 0 0 _ _ _ _ (near0Z e 2 ltac:(lia)) (near0 e mu Fm) ltac:(lra) ltac:(lra) M3) as N4.
  pose proof (mul_s e He (0 + 0 + 2) 0 _ _ _ _ N4 (near0 e mu Fm) ltac:(lra) ltac:(lra) M4) as N5.
  pose proof (mul_s e He (0 + 0 + 2 + 0 + 2) 0 _ _ _ _ N5 (near0 e x Fx) ltac:(lra) ltac:(lra) M5) as N6.
  set (w := 2 * B2R mu * B2R mu * B2R x) in *. assert (Pw : 0 < w) by (unfold w; repeat (apply Rmult_lt_0_compat; [|assumption]); lra).
  assert (Q0 : 0 <= q). { unfold q. apply Rmult_le_pos; [|left; now apply Rinv_0_lt_compat]. apply Rmult_le_pos; [lra|]. fold (Rsqr d). apply Rle_0_sqr. }
  assert (Eq : - B2R l * (d * d) / w = - q) by (unfold q; field; lra).
  pose proof (Rabs_pos (ln (B2R x))) as Q1. pose proof (Rabs_pos (ln (B2R l))) as Q2. unfold S in HS.
  assert (A2 : acc 14 (1 + q) (bdiv (bmul (Bopp l) (bmul (bsub x mu) (bsub x mu))) (bmul (bmul (bmul (bofZ 2) mu) mu) x)) (- B2R l * (d * d) / w)).
  { replace 14 with (13 + 1) by lra. apply (acc_near e He 13); try lra; [|rewrite Eq, Rabs_Ropp, Rabs_pos_eq; lra].
    eapply near_le; [apply (near_div _ 0 _ 0 _ _ _ _ N3 N6); try lra|lra|lra]. rewrite Eq, Rabs_Ropp, Rabs_pos_eq; lra. }
  assert (A1 : acc 14 (4 + 2 * Rabs (ln (B2R x)) + Rabs (ln (B2R l))) (bmul (Bopp (blit (1#2))) (bsub (badd (t_LOG_2PI F) (bmul (bofZ 3) (t_log F x))) (t_log F l))) (- / 2 * (ln (2 * Rtrigo1.PI) + 3 * ln (B2R x) - ln (B2R l)))).
  { set (lx := Rabs (ln (B2R x))) in *. set (ll := Rabs (ln (B2R l))) in *.
    assert (B1 : acc 5 2 (t_LOG_2PI F) (ln (2 * Rtrigo1.PI))). { apply (acc_le e He 2 2); try lra. apply acc_const; auto; try lra. pose proof ln_2PI. rewrite Rabs_pos_eq; lra. }
    assert (B2 : acc 5 (1 + 3 * (1 + lx)) (bmul (bofZ 3) (t_log F x)) (3 * ln (B2R x))).
    { replace 5 with (2 * 0 + 5) by lra. pose proof (acc_clog F e He 0 (bofZ 3) 3 x L (near0Z e 3 ltac:(lia)) ltac:(lra) Px) as Q. rewrite (Rabs_pos_eq 3) in Q by lra. apply Q. fold lx. lra. }
    assert (B3 : acc 7 (1 + ll) (t_log F l) (ln (B2R l))) by (apply (acc_le e He 3 (1 + ll)); try lra; now apply (acc_lg F e He)).
    apply (acc_le e He ((7 + 2) + 2 * 0 + 2) (4 + 2 * lx + ll)); try lra.
    apply (acc_mul e He (7 + 2) 0 ((2 + (1 + 3 * (1 + lx))) + (1 + ll)) (4 + 2 * lx + ll) _ _ _ _ (near0mh e)); try lra; [|rewrite Rabs_Ropp, Rabs_pos_eq; lra].
    apply (acc_sub e He 7); auto; try lra. replace 7 with (5 + 2) by lra. apply (acc_add e He 5); auto; lra. }
  replace 16 with (14 + 2) by lra. replace S with ((4 + 2 * Rabs (ln (B2R x)) + Rabs (ln (B2R l))) + (1 + q)) by (unfold S; ring). apply (acc_add e He 14); auto; lra.
Qed.
End D.
