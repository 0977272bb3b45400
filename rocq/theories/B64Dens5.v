(** Densities evaluated in binary64, fifth part: Student, inverse Gaussian, Weibull and the mass
    functions. *)
From Coq Require Import ZArith QArith Reals Bool Lra Lia.
From Verif Require Import Num Sanity Prob Dens B64 B64R B64Ord SpecB64 B64Cdf SpecB64D B64Mag B64Dens B64Dens2 B64Dens3 B64Dens4.
From Flocq Require Import Core IEEE754.BinarySingleNaN Plus_error.
Local Open Scope R_scope.

Lemma pos_ne r : 0 <= r -> r <> 0 -> 0 < r.
Proof. intros [H|H] N; auto. congruence. Qed.
Lemma one_plus_ge w : nn w -> 0 <= ev w -> nn (badd (bofZ 1) w) /\ 1 <= ev (badd (bofZ 1) w).
Proof.
  intros N P. destruct (bofZ_R 1 ltac:(sm)) as [B1 F1]. split; [now apply badd_l_nn|].
  destruct Z0 as [N0 E0]. pose proof (badd_l (bofZ 1) F1 (bofZ 0) w (in_dom _ N0) (in_dom _ N)) as Q. cbv beta in Q. rewrite E0 in Q. specialize (Q P).
  destruct (bofZ_R 0 ltac:(sm)) as [B0 F0]. rewrite (proj2 (add_ff _ _ F1 F0)), B1, B0, Rplus_0_r, (rc_Z 1) in Q by sm. exact Q.
Qed.
(** (z/d) z is a square up to a positive factor: not negative and not NaN, even when z/d overflows *)
Lemma zdz_ok z d : bfin z -> bpos d -> nn (bmul (bdiv z d) z) /\ 0 <= ev (bmul (bdiv z d) z).
Proof.
  intros Fz [Fd Pd]. destruct (div_ff z d Fz Fd ltac:(lra)) as [N E]. destruct (nn_cases _ N) as [Fq | I].
  - destruct (mul_ff _ z Fq Fz) as [U V]. split; auto. eapply ge0_of; [exact V|]. rewrite ev_fin in E by auto. rewrite E.
    destruct (Rle_dec 0 (B2R z)) as [G|G].
    + assert (0 <= rc (B2R z / B2R d)) by (rewrite <- rc_0; apply rc_mono; apply Rmult_le_pos; auto; left; now apply Rinv_0_lt_compat). nra.
    + assert (rc (B2R z / B2R d) <= 0) by (rewrite <- rc_0; apply rc_mono; apply Rinv_0_lt_compat in Pd; unfold Rdiv; nra). nra.
  - pose proof maxR_pos as M. destruct (Rtotal_order (B2R z) 0) as [G|[G|G]].
    + assert (Q : bdiv z d = mI).
      { destruct I as [I|I]; auto. exfalso. rewrite I in E. cbn [ev] in E. assert (rc (B2R z / B2R d) <= 0) by (rewrite <- rc_0; apply rc_mono; apply Rinv_0_lt_compat in Pd; unfold Rdiv; nra). lra. }
      rewrite Q. destruct z as [s|s| |s m e B]; try discriminate Fz; cbn in G; try lra. destruct s; [split; [reflexivity|cbn; lra]|].
      exfalso. pose proof (F2R_gt_0 radix2 (Float radix2 (Zpos m) e) ltac:(reflexivity)). cbn in *. lra.
    + exfalso. rewrite G in E. unfold Rdiv in E. rewrite Rmult_0_l, rc_0 in E. destruct I as [I|I]; rewrite I in E; cbn [ev] in E; lra.
    + assert (Q : bdiv z d = pI).
      { destruct I as [I|I]; auto. exfalso. rewrite I in E. cbn [ev] in E. assert (0 <= rc (B2R z / B2R d)) by (rewrite <- rc_0; apply rc_mono; apply Rmult_le_pos; [lra|]; left; now apply Rinv_0_lt_compat). lra. }
      rewrite Q. destruct (bpos_shape z (conj Fz G)) as (m & e & B & ->). split; [reflexivity|cbn; lra].
Qed.

Section D5.
Variable F : TF.
Notation NB := (B64_Num F).
Variable LS : log_std F.
Variable EX : exp_all_ok F.

(** *** Student *)
Lemma dt_okd dof : lgamma_mid F -> small_const (t_LOG_PI F) -> small_const (t_LOG_2PI F) -> Bleb beps dof = true -> Bleb dof (btwo 990) = true \/ dof = pI ->
  forall lf x, nn x -> okd lf (dt (N:=NB) x dof lf).
Proof.
  intros LG S1 S2 H1 H2 lf x Nx. assert (Nd : nn dof) by (apply leb_ev in H1; tauto).
  unfold dt, t_sanity2, t_sanity1. rewrite (nan_nn F x Nx), (nan_nn F dof Nd). cbn [negb andb].
  assert (E3 : Bltb dof beps = false). { apply leb_ev in H1. apply ltb_ev_f; tauto. }
  change (ltb dof epsilon) with (Bltb dof beps). rewrite E3. cbn [negb].
  destruct (nn_cases x Nx) as [Fx | Hx]; [|assert (I : is_inf (N:=NB) x = true) by (destruct Hx; subst; reflexivity); rewrite I; apply okd_zero].
  rewrite inf_fin by auto. destruct (eps_pos dof H1) as [Pd | ->].
  - rewrite (bpos_not_inf dof F Pd). destruct H2 as [H2| ->]; [|destruct Pd as [Pd _]; discriminate Pd]. apply okd_exp; auto.
    change (dt_log_compute (N:=NB) x dof) with
      (badd (bsub (bsub (t_lgamma F (badd (bdiv dof (bofZ 2)) (blit (1#2)))) (bmul (blit (1#2)) (badd (t_log F dof) (t_LOG_PI F)))) (t_lgamma F (bdiv dof (bofZ 2))))
        (bmul (Bopp (badd (bdiv dof (bofZ 2)) (blit (1#2)))) (t_log F (badd (bofZ 1) (bmul (bdiv x dof) x))))).
    pose proof (bmg_half_div 990 dof ltac:(lia) (pos_le_bmg dof 990 ltac:(lia) Pd H2)) as M. change (990 - 1)%Z with 989%Z in M.
    assert (Ph : bpos (bdiv dof (bofZ 2))).
    { destruct (bofZ_R 2 ltac:(sm)) as [B2' F2]. pose proof (bmg_fin _ _ M) as Fh. split; auto. rewrite <- ev_fin by auto. destruct Pd as [Fd Pd].
      rewrite (proj2 (div_ff dof _ Fd F2 ltac:(rewrite B2'; lra))), B2'. apply leb_ev in H1. destruct H1 as (_ & _ & H1).
      change beps with (btwo (-52)) in H1. destruct (btwo_R (-52) ltac:(lia)) as [U V]. rewrite (ev_fin _ U), V, ev_fin in H1 by auto.
      apply Rlt_le_trans with (bpow radix2 (-53)); [apply bpow_gt_0|]. apply Rle_trans with (rc (bpow radix2 (-53))); [|apply rc_mono; change (-53)%Z with (-52 + - (1))%Z; rewrite bpow_plus; change (bpow radix2 (- (1))) with (/ 2); lra].
      assert (K : rnd (bpow radix2 (-53)) = bpow radix2 (-53)) by (apply rnd_bpow; lia). rewrite rc_in; rewrite K; [lra|]. rewrite Rabs_pos_eq by apply bpow_ge_0. apply bpow_max. lia. }
    assert (M2 : bmg 990 (badd (bdiv dof (bofZ 2)) (blit (1#2)))) by (apply (bmg_add 989); [lia|auto|apply bmg_le with (-1)%Z; [lia|apply bmg_half]]).
    assert (Pq : bpos (badd (bdiv dof (bofZ 2)) (blit (1#2)))).
    { split; [now apply bmg_fin in M2|]. rewrite <- ev_fin by (now apply bmg_fin in M2). destruct half_R as [Hf Hr]. destruct Ph as [Fh Ph]. rewrite (proj2 (add_ff _ _ Fh Hf)), Hr.
      apply Rlt_le_trans with (rc (/ 2)); [rewrite rc_half; lra|]. apply rc_mono. lra. }
    apply badd_l_nn.
    + apply (bmg_fin 1004). apply (bmg_sub 1003); [lia| |apply bmg_le with 1002%Z; [lia|]; apply lgamma_pos; auto; apply bmg_le with 989%Z; auto; lia].
      apply (bmg_sub 1002); [lia|now apply lgamma_pos|]. apply bmg_le with 10%Z; [lia|]. apply (bmg_half_l 11); [lia|]. apply (bmg_add 10); [lia|now apply log_bmg|apply bmg_le with 1%Z; [lia|now apply small_mag]].
    + destruct (zdz_ok x dof Fx Pd) as [U V]. destruct (one_plus_ge _ U V) as [W Y]. destruct (log_ge F _ LS W ltac:(lra)) as [Nl _].
      assert (Q : bmul (Bopp (badd (bdiv dof (bofZ 2)) (blit (1#2)))) (t_log F (badd (bofZ 1) (bmul (bdiv x dof) x))) = Bopp (bmul (badd (bdiv dof (bofZ 2)) (blit (1#2))) (t_log F (badd (bofZ 1) (bmul (bdiv x dof) x)))) \/ nn (bmul (Bopp (badd (bdiv dof (bofZ 2)) (blit (1#2)))) (t_log F (badd (bofZ 1) (bmul (bdiv x dof) x))))).
      { right. revert Nl. generalize (t_log F (badd (bofZ 1) (bmul (bdiv x dof) x))). intros l Nl. destruct (bpos_shape _ Pq) as (m & e & B & ->).
        destruct (nn_cases l Nl) as [Fl | [-> | ->]]; [|reflexivity|reflexivity]. apply mul_ff; auto. }
      destruct Q as [Q|Q]; auto. rewrite Q. apply opp_ev. now apply bmul_l_nn.
  - change (Num.is_posinf (Num:=NB) pI) with true. cbv iota. apply dnorm_okd; auto.
Qed.

(** *** inverse Gaussian, when the denominator of the exponent is a positive number *)
Lemma dinvgauss_okd mu lambda lf x : small_const (t_LOG_2PI F) -> nn x -> bpos mu -> bpos lambda ->
  (bpos x -> bpos (bmul (bmul (bmul (bofZ 2) mu) mu) x)) -> okd lf (dinvgauss (N:=NB) x mu lambda lf).
Proof.
  intros S2 Nx Pm Pl Hd. pose proof Pm as [Fm Pm']. pose proof Pl as [Fl Pl'].
  unfold dinvgauss, invgauss_sanity3, invgauss_sanity2, any_nan2. rewrite (nan_nn F x Nx), (nan_nn F mu (nn_fin _ Fm)), (nan_nn F lambda (nn_fin _ Fl)). cbn [negb andb orb].
  change (ltb mu (ofZ 0)) with (Bltb mu (bofZ 0)). change (ltb lambda (ofZ 0)) with (Bltb lambda (bofZ 0)). rewrite !lt0_f by (auto; lra). cbn [negb].
  change (ltb x (ofZ 0)) with (Bltb x (bofZ 0)). change (eqb x (ofZ 0)) with (Beqb x (bofZ 0)). change (eqb lambda (ofZ 0)) with (Beqb lambda (bofZ 0)). rewrite (eq0_f lambda) by auto.
  assert (LV : okd lf (log_if (N:=NB) (dinvgauss_limit_vals (N:=NB) x mu lambda) lf)).
  { unfold dinvgauss_limit_vals. repeat match goal with |- context [if ?c then _ else _] => destruct c end; first [now apply okd_log_inf | now apply okd_log_0]. }
  destruct (x_tests F x Nx) as [-> | [[-> ->] | (-> & -> & [I | [_ Px]])]]; [apply okd_zero|rewrite orb_true_r; exact LV| |].
  - assert (A : any_inf3 (N:=NB) x mu lambda = true) by (destruct x as [| [|] | |]; try discriminate I; reflexivity). rewrite A. exact LV.
  - specialize (Hd Px). pose proof Px as [Fx Px']. unfold any_inf3. rewrite !inf_fin by auto. cbn [orb]. apply okd_exp; auto.
    change (dinvgauss_log_compute (N:=NB) x mu lambda) with
      (badd (bmul (Bopp (blit (1#2))) (bsub (badd (t_LOG_2PI F) (bmul (bofZ 3) (t_log F x))) (t_log F lambda)))
        (bdiv (bmul (Bopp lambda) (bmul (bsub x mu) (bsub x mu))) (bmul (bmul (bmul (bofZ 2) mu) mu) x))).
    apply badd_l_nn.
    + apply (bmg_fin 13). apply (bmg_mul (-1) 14); [lia|apply bmg_opp, bmg_half|]. apply (bmg_sub 13); [lia| |apply bmg_le with 10%Z; [lia|now apply log_bmg]].
      apply (bmg_add 12); [lia|apply bmg_le with 1%Z; [lia|now apply small_mag]|]. apply (bmg_mul 2 10); [lia| |now apply log_bmg]. apply bmg_Z_le; [lia|cbn; lra].
    + apply bdiv_r_nn; auto. destruct (sq_ev (bsub x mu) (bsub_r_nn _ _ Fm Nx)) as [Nq _]. revert Nq. generalize (bmul (bsub x mu) (bsub x mu)). intros q Nq.
      destruct (bpos_shape lambda Pl) as (m & e & B & ->). destruct (nn_cases q Nq) as [Fq | [-> | ->]]; [|reflexivity|reflexivity]. apply mul_ff; auto.
Qed.

(** *** Weibull *)
Lemma dweibull_okd shape scale lf x : pow_ok F -> nn x -> Bleb beps shape = true -> Bleb shape (btwo 900) = true -> big_eps scale ->
  (bpos x -> bpos (bdiv x scale)) -> (Beqb x (bofZ 0) = true -> Beqb shape (bofZ 1) = false) -> okd lf (dweibull (N:=NB) x shape scale lf).
Proof.
  intros PW Nx H1 H2 [H3 H4] Hz H0.
  assert (Psh : bpos shape) by (destruct (eps_pos shape H1) as [P| ->]; auto; vm_compute in H2; discriminate H2).
  assert (Psc : bpos scale) by (destruct (eps_pos scale H3) as [P| ->]; auto; vm_compute in H4; discriminate H4).
  pose proof Psh as [Fsh Psh']. pose proof Psc as [Fsc Psc'].
  assert (E1 : Bltb shape beps = false). { apply leb_ev in H1. apply ltb_ev_f; tauto. }
  assert (E2 : Bltb scale beps = false). { apply leb_ev in H3. apply ltb_ev_f; tauto. }
  unfold dweibull, weibull_sanity3, weibull_sanity2, any_nan2. rewrite (nan_nn F x Nx), (nan_nn F shape (nn_fin _ Fsh)), (nan_nn F scale (nn_fin _ Fsc)). cbn [negb andb orb].
  change (ltb shape epsilon) with (Bltb shape beps). change (ltb scale epsilon) with (Bltb scale beps). rewrite E1, E2. cbn [negb].
  change (ltb x (ofZ 0)) with (Bltb x (bofZ 0)). change (eqb x (ofZ 0)) with (Beqb x (bofZ 0)). change (Num.is_posinf (Num:=NB) x) with (bisposinf x). change (ltb shape (ofZ 1)) with (Bltb shape (bofZ 1)).
  (* the two constants *)
  assert (Mr : bfin (bdiv shape scale) /\ 0 <= B2R (bdiv shape scale)).
  { destruct (div_ff shape scale Fsh Fsc ltac:(lra)) as [U V].
    assert (K : bmg 952 (bdiv shape scale)).
    { apply bmg_of with (r := B2R shape / B2R scale); auto; [lia|]. pose proof (pos_le_bmg shape 900 ltac:(lia) Psh H2) as [_ A].
      apply leb_ev in H3. destruct H3 as (_ & _ & H3). change beps with (btwo (-52)) in H3. destruct (btwo_R (-52) ltac:(lia)) as [U' V']. rewrite (ev_fin _ U'), V', ev_fin in H3 by auto.
      unfold Rdiv. rewrite Rabs_mult, (Rabs_pos_eq (/ B2R scale)) by (left; now apply Rinv_0_lt_compat). change 952%Z with (900 + 52)%Z. rewrite bpow_plus.
      apply Rmult_le_compat; auto using Rabs_pos; [left; now apply Rinv_0_lt_compat|]. replace (bpow radix2 52) with (/ bpow radix2 (-52)) by (rewrite <- bpow_opp; reflexivity). apply Rinv_le_contravar; auto. apply bpow_gt_0. }
    split; [now apply bmg_fin in K|]. rewrite <- ev_fin by (now apply bmg_fin in K). eapply ge0_of; [exact V|]. apply Rmult_le_pos; [lra|left; now apply Rinv_0_lt_compat]. }
  assert (Lr : nn (t_log F (bdiv shape scale)) /\ ev (t_log F (bdiv shape scale)) <= 1000).
  { destruct Mr as [Fr Pr]. destruct (Req_dec (B2R (bdiv shape scale)) 0) as [Z|Z].
    - rewrite log_zero by auto. split; [reflexivity|]. cbn [mI ev]. pose proof maxR_pos. lra.
    - destruct (log_bmg F (bdiv shape scale) LS (conj Fr (pos_ne _ Pr Z))) as [M R']. split; [now apply bmg_nn in M|lra]. }
  assert (Pw : forall z, nn z -> 0 <= ev z -> nn (t_pow F z shape) /\ 0 <= ev (t_pow F z shape)).
  { intros z Nz Pz. destruct (PW shape (bpos_pos _ Psh)) as [A _]. destruct (ev_le_all z Nz) as [_ V]. destruct (A z) as [U _]; auto; [now apply (le_Zl 0); [sm|]|]. apply (le_Zl 0) in U; [|sm]. auto. }
  assert (Ms : bmg 901 (bsub shape (bofZ 1))) by (apply (bmg_sub 900); [lia|now apply pos_le_bmg|apply bmg_1; lia]).
  assert (K1 : 1000 < maxR) by apply lt_1000.
  destruct (x_tests F x Nx) as [-> | [[-> X0] | (-> & -> & [-> | [-> Px]])]]; [apply okd_zero| |apply okd_zero|]; cbn [andb].
  - rewrite X0. destruct (Bltb shape (bofZ 1)) eqn:S1; cbn [andb].
    + split; [reflexivity|]. intros _. change (0 <= ev pI). cbn [pI ev]. pose proof maxR_pos. lra.
    + assert (Fx : bfin x /\ B2R x = 0).
      { destruct Z0 as [N0 E0]. apply eqb_ev in X0; auto. rewrite E0 in X0. assert (bfin x) by (apply ev_lt_fin; auto; rewrite X0; pose proof maxR_pos; lra). split; auto. now rewrite <- ev_fin. }
      destruct Fx as [Fx Ex]. assert (NI : bisposinf x = false) by now apply (posinf_fin F). rewrite NI. apply okd_exp; auto.
      change (dweibull_log_compute (N:=NB) (div x scale) shape scale) with
        (bsub (badd (t_log F (bdiv shape scale)) (bmul (bsub shape (bofZ 1)) (t_log F (bdiv x scale)))) (t_pow F (bdiv x scale) shape)).
      destruct (div_ff x scale Fx Fsc ltac:(lra)) as [U V]. rewrite Ex in V. unfold Rdiv in V. rewrite Rmult_0_l, rc_0 in V.
      assert (Fz : bfin (bdiv x scale)) by (apply ev_lt_fin; auto; rewrite V; pose proof maxR_pos; lra).
      rewrite (log_zero F (bdiv x scale)) by (auto; now rewrite <- ev_fin).
      assert (Ps1 : bpos (bsub shape (bofZ 1))).
      { destruct (bofZ_R 1 ltac:(sm)) as [B1 F1]. apply bltb_R_f in S1; auto. pose proof (H0 X0) as S2. apply beqb_R_f in S2; auto. rewrite B1 in *.
        destruct (sub_pos (bofZ 1) shape F1 Fsh ltac:(lra)) as [U' V']. pose proof (bmg_fin _ _ Ms). split; auto. now rewrite <- ev_fin. }
      unfold mI. rewrite mull_inf by auto. destruct Lr as [Nl Ll]. destruct (Pw (bdiv x scale) U ltac:(lra)) as [Np Pp].
      assert (Q : badd (t_log F (bdiv shape scale)) (B754_infinity true) = B754_infinity true).
      { destruct (nn_cases _ Nl) as [Fl | [E | E]]; [now apply addl_inf|rewrite E in Ll; cbn [ev] in Ll; lra|now rewrite E]. }
      rewrite Q. apply sub_nn; [reflexivity|auto|cbn [ev]; lra|lra].
  - specialize (Hz Px). apply okd_exp; auto.
    change (dweibull_log_compute (N:=NB) (div x scale) shape scale) with
        (bsub (badd (t_log F (bdiv shape scale)) (bmul (bsub shape (bofZ 1)) (t_log F (bdiv x scale)))) (t_pow F (bdiv x scale) shape)).
    destruct (log_bmg F (bdiv x scale) LS Hz) as [Ml _]. pose proof (bmg_mul 901 10 _ _ ltac:(lia) Ms Ml) as Mp. change (901 + 10)%Z with 911%Z in Mp.
    destruct Lr as [Nl Ll]. pose proof Hz as [Fz Pz]. destruct (Pw (bdiv x scale) (nn_fin _ Fz) ltac:(rewrite ev_fin by auto; lra)) as [Np Pp].
    assert (Q : nn (badd (t_log F (bdiv shape scale)) (bmul (bsub shape (bofZ 1)) (t_log F (bdiv x scale)))) /\ ev (badd (t_log F (bdiv shape scale)) (bmul (bsub shape (bofZ 1)) (t_log F (bdiv x scale)))) < maxR).
    { destruct (nn_cases _ Nl) as [Fl | [E | E]].
      - assert (Mr' : 0 < B2R (bdiv shape scale)).
        { destruct Mr as [Fr Pr]. destruct (Req_dec (B2R (bdiv shape scale)) 0) as [Z|Z]; [|now apply pos_ne]. rewrite log_zero in Fl by auto. discriminate Fl. }
        destruct (log_bmg F (bdiv shape scale) LS (conj (proj1 Mr) Mr')) as [M' _].
        assert (M3 : bmg 912 (badd (t_log F (bdiv shape scale)) (bmul (bsub shape (bofZ 1)) (t_log F (bdiv x scale))))) by (apply (bmg_add 911); [lia|apply bmg_le with 10%Z; [lia|auto]|auto]).
        destruct (bmg_ev 912 _ ltac:(lia) M3) as (A & _ & B). split; [auto|lra].
      - rewrite E in Ll. cbn [ev] in Ll. lra.
      - rewrite E. rewrite addr_inf by (now apply bmg_fin in Mp). split; [reflexivity|]. cbn [ev]. lra. }
    destruct Q as [Q1 Q2]. apply sub_nn; auto. lra.
Qed.

(** *** mass functions *)
Lemma one_minus p : Bleb (bofZ 0) p = true -> Bleb p (bofZ 1) = true -> bfin p /\ 0 <= B2R p <= 1 /\ nn (bsub (bofZ 1) p) /\ 0 <= ev (bsub (bofZ 1) p) <= 1.
Proof.
  intros A B. apply (le_Zl 0) in A; [|sm]. apply (le_Zr 1) in B; [|sm]. destruct A as [N A], B as [_ B]. pose proof maxR_1.
  destruct (fin_of p 0 1 N ltac:(lra) ltac:(lra) ltac:(lra)) as [Fp Hp]. split; auto. split; auto. destruct (bofZ_R 1 ltac:(sm)) as [B1 F1].
  destruct (sub_ff _ _ F1 Fp) as [U V]. split; auto. rewrite V, B1. apply (rc_range 0 1); try sm. lra.
Qed.
Lemma bern_san p : Bleb (bofZ 0) p = true -> Bleb p (bofZ 1) = true -> bern_sanity (N:=NB) p = true.
Proof.
  intros A B. destruct (one_minus p A B) as (Fp & Hp & _). unfold bern_sanity. rewrite (nan_nn F p (nn_fin _ Fp)), inf_fin by auto.
  destruct (bofZ_R 1 ltac:(sm)) as [B1 F1]. change (ltb p (ofZ 0)) with (Bltb p (bofZ 0)). rewrite lt0_f by (auto; lra).
  change (ltb (ofZ 1) p) with (Bltb (bofZ 1) p). rewrite (proj2 (bltb_R_f (bofZ 1) p F1 Fp)) by lra. reflexivity.
Qed.
Lemma dbern_okd p : Bleb (bofZ 0) p = true -> Bleb p (bofZ 1) = true -> forall lf x, okd lf (dbern (N:=NB) x p lf).
Proof.
  intros A B lf x. destruct (one_minus p A B) as (Fp & Hp & N1 & P1). unfold dbern. rewrite bern_san by auto. cbn [negb]. unfold dbern_compute.
  destruct (x =? 1)%Z; [apply okd_log; auto; [now apply nn_fin|rewrite ev_fin by auto; lra]|]. destruct (x =? 0)%Z; [|now apply okd_log_0].
  apply okd_log; auto. apply P1.
Qed.
Lemma dradem_okd p : Bleb (bofZ 0) p = true -> Bleb p (bofZ 1) = true -> forall lf x, okd lf (dradem (N:=NB) x p lf).
Proof.
  intros A B lf x. destruct (one_minus p A B) as (Fp & Hp & N1 & P1). unfold dradem. change (radem_sanity (N:=NB) p) with (bern_sanity (N:=NB) p). rewrite bern_san by auto. cbn [negb]. unfold dradem_compute.
  destruct (x =? 1)%Z; [apply okd_log; auto; [now apply nn_fin|rewrite ev_fin by auto; lra]|]. destruct (x =? -1)%Z; [|now apply okd_log_0].
  apply okd_log; auto. apply P1.
Qed.
(** the logarithm of a probability times a positive integer *)
Lemma klog k p : (0 < k <= 2 ^ 53)%Z -> nn p -> 0 <= ev p <= 1 -> nn (bmul (bofZ k) (t_log F p)) /\ ev (bmul (bofZ k) (t_log F p)) <= bpow radix2 63.
Proof.
  intros Hk N H. pose proof (bpos_Z k Hk) as Pk. pose proof maxR_1. destruct (fin_of p 0 1 N ltac:(lra) ltac:(lra) ltac:(lra)) as [Fp Hp].
  destruct (Req_dec (B2R p) 0) as [Z|Z].
  - rewrite log_zero by auto. unfold mI. rewrite mull_inf by auto. split; [reflexivity|]. cbn [ev]. pose proof (bpow_ge_0 radix2 63). pose proof maxR_pos. lra.
  - destruct (log_bmg F p LS (conj Fp (pos_ne _ (proj1 Hp) Z))) as [M _].
    assert (Mk : bmg 53 (bofZ k)). { apply bmg_Z_le; [lia|]. replace (bpow radix2 53) with (IZR (2 ^ 53)) by reflexivity. apply IZR_le. lia. }
    pose proof (bmg_mul 53 10 _ _ ltac:(lia) Mk M) as Q. change (53 + 10)%Z with 63%Z in Q. destruct (bmg_ev 63 _ ltac:(lia) Q) as (U & V & _). split; auto. lra.
Qed.
Lemma dbinom_okd n p : log_binom_ok F -> (0 <= n <= 2 ^ 53)%Z -> Bleb (bofZ 0) p = true -> Bleb p (bofZ 1) = true -> forall lf x, okd lf (dbinom (N:=NB) x n p lf).
Proof.
  intros LB Hn A B lf x. destruct (one_minus p A B) as (Fp & Hp & N1 & P1).
  assert (Sa : binom_sanity (N:=NB) n p = true).
  { pose proof (bern_san p A B) as Q. unfold bern_sanity in Q. unfold binom_sanity. rewrite (proj2 (Z.ltb_ge n 0)) by lia. exact Q. }
  unfold dbinom. rewrite Sa. cbn [negb]. destruct ((x <? 0) || (n <? x))%Z eqn:Hx; [apply okd_zero|].
  apply orb_false_iff in Hx. destruct Hx as [X1 X2]. apply Z.ltb_ge in X1, X2. destruct (Z.eqb_spec n 0) as [->|Hn0].
  { unfold dbinom_limit_vals. destruct (x =? 0)%Z; [|now apply okd_log_0]. destruct (ev_Z 1 ltac:(sm)) as [U V]. apply okd_log; auto. change (0 <= ev (bofZ 1)). lra. }
  destruct (n =? 1)%Z; [now apply dbern_okd|]. apply okd_exp; auto. unfold dbinom_log_compute.
  pose proof (klog n (bsub (bofZ 1) p) ltac:(lia) N1 P1) as Kn. pose proof (nn_fin _ Fp) as Np. assert (Hp' : 0 <= ev p <= 1) by (rewrite ev_fin by auto; lra).
  destruct (Z.eqb_spec x 0) as [->|Hx0]; [apply Kn|]. destruct (Z.eqb_spec x n) as [->|Hxn]; [apply (klog n p); auto; lia|].
  change (nn (badd (badd (t_log_binom F n x) (bmul (bofZ x) (t_log F p))) (bmul (bofZ (n - x)) (t_log F (bsub (bofZ 1) p))))).
  destruct (klog x p ltac:(lia) Np Hp') as [U V]. destruct (klog (n - x) (bsub (bofZ 1) p) ltac:(lia) N1 P1) as [U' V'].
  destruct (LB n x ltac:(lia) ltac:(lia)) as [L1 L2]. apply (le_Zl 0) in L1; [|sm]. destruct (btwo_R 60 ltac:(lia)) as [F6 E6]. apply leb_ev in L2. destruct L1 as [Nl L1], L2 as (_ & _ & L2). rewrite (ev_fin _ F6), E6 in L2.
  pose proof (bpow_max 60 ltac:(lia)) as Y6. pose proof (bpow_max 63 ltac:(lia)) as Y7.
  assert (Ml : bmg 60 (t_log_binom F n x)).
  { assert (Fl : bfin (t_log_binom F n x)) by (apply ev_lt_fin; auto; lra). split; auto. rewrite ev_fin in * by auto. rewrite Rabs_pos_eq by lra. lra. }
  destruct (nn_cases _ U) as [Fu | [E | E]]; [|rewrite E in V; cbn [ev] in V; lra|].
  - assert (Q : nn (badd (t_log_binom F n x) (bmul (bofZ x) (t_log F p))) /\ ev (badd (t_log_binom F n x) (bmul (bofZ x) (t_log F p))) < maxR).
    { destruct (add_ff _ _ (bmg_fin _ _ Ml) Fu) as [W Y]. split; auto. rewrite Y. apply Rle_lt_trans with (bpow radix2 64); [|apply bpow_max; lia].
      apply Rle_trans with (rc (bpow radix2 64)); [apply rc_mono|].
      - change 64%Z with (63 + 1)%Z. rewrite bpow_plus_1. change (IZR radix2) with 2. rewrite (ev_fin _ Fu) in V. rewrite ev_fin in L2 by (now apply bmg_fin in Ml). assert (bpow radix2 60 <= bpow radix2 63) by (apply bpow_le; lia). lra.
      - rewrite rc_in; rewrite rnd_bpow; try lia; try lra. rewrite Rabs_pos_eq by apply bpow_ge_0. apply bpow_max; lia. }
    apply add_nn; try apply Q; auto. lra.
  - rewrite E. rewrite addl_inf by (now apply bmg_fin in Ml). apply add_nn; auto; [reflexivity|cbn [ev]; pose proof maxR_pos; lra|lra].
Qed.
Lemma dpois_okd rate : lgamma_ge F -> Bleb (bofZ 0) rate = true -> forall lf x, (x < 2 ^ 53)%Z -> okd lf (dpois (N:=NB) x rate lf).
Proof.
  intros LG H lf x Hx. destruct (ge0_ev _ H) as [Nr Pr]. unfold dpois, pois_sanity. rewrite (nan_nn F rate Nr).
  change (ltb rate (ofZ 0)) with (Bltb rate (bofZ 0)). rewrite lt0_false by auto. cbn [negb]. destruct (x <? 0)%Z eqn:X0; [apply okd_zero|]. apply Z.ltb_ge in X0.
  change (eqb rate (ofZ 0)) with (Beqb rate (bofZ 0)). change (Num.is_posinf (Num:=NB) rate) with (bisposinf rate).
  destruct (ge0_cases rate H) as [[A B] | [P | ->]]; [rewrite eq0_t by auto; destruct (x =? 0)%Z; [apply okd_one|apply okd_zero]| |apply okd_zero].
  rewrite eq0_f by auto. pose proof (bpos_not_inf rate F P) as I. cbn in I. rewrite I. apply okd_exp; auto. pose proof P as [Fr Pr'].
  change (dpois_log_compute (N:=NB) x rate) with (bsub (bsub (bmul (bofZ x) (t_log F rate)) rate) (t_lgamma F (bofZ (x + 1)))).
  destruct (log_bmg F rate LS P) as [Ml _].
  assert (Mk : bmg 53 (bofZ x)). { apply bmg_Z_le; [lia|]. replace (bpow radix2 53) with (IZR (2 ^ 53)) by reflexivity. apply IZR_le. lia. }
  pose proof (bmg_mul 53 10 _ _ ltac:(lia) Mk Ml) as Q. change (53 + 10)%Z with 63%Z in Q. pose proof (bmg_fin _ _ Q) as Fq. destruct (bmg_ev 63 _ ltac:(lia) Q) as (_ & Bq & _).
  destruct (sub_ff _ rate Fq Fr) as [U V].
  assert (W : ev (bsub (bmul (bofZ x) (t_log F rate)) rate) <= bpow radix2 63).
  { rewrite V. apply Rle_trans with (rc (bpow radix2 63)); [apply rc_mono; rewrite ev_fin in Bq by auto; lra|].
    rewrite rc_in; rewrite rnd_bpow; try lia; try lra. rewrite Rabs_pos_eq by apply bpow_ge_0. apply bpow_max; lia. }
  pose proof (bpow_max 63 ltac:(lia)). pose proof maxR_1.
  assert (L1 : Bleb (bofZ 1) (bofZ (x + 1)) = true). { destruct (ev_Z (x + 1) ltac:(lia)) as [Na Ea]. apply (le_Zl 1); [sm|]. split; auto. rewrite Ea. apply IZR_le. lia. }
  specialize (LG _ L1). apply (le_Zl (-1)) in LG; [|sm]. destruct LG as [Ng Lg]. apply sub_nn; auto; lra.
Qed.
End D5.
