(** Distribution functions in binary64, continued: the families other than the normal. *)
From Coq Require Import ZArith QArith Reals Bool Lra Lia.
From Verif Require Import Num Sanity Prob B64 B64R B64Ord SpecB64 B64Cdf.
From Flocq Require Import Core IEEE754.BinarySingleNaN.
Local Open Scope R_scope.

Lemma eps_pos : bpos beps.
Proof.
  assert (Fe : bfin beps) by (vm_compute; reflexivity). split; auto.
  destruct (bofZ_R 0 ltac:(sm)) as [Z0 Zf]. rewrite <- Z0. apply bltb_R; auto.
Qed.
Lemma nn_opp x : nn x -> nn (Bopp x) /\ ev (Bopp x) = - ev x. Proof. apply opp_ev. Qed.
Lemma ev_opp x : nn x -> ev (Bopp x) = - ev x. Proof. apply opp_ev. Qed.
Lemma fmt2 x : generic_format radix2 fexp64 x -> generic_format radix2 fexp64 (2 * x).
Proof.
  intros H. apply FLT_format_generic in H; [|reflexivity]. destruct H as [f E1 E2 E3].
  apply generic_format_FLT. exists (Float radix2 (Fnum f) (Fexp f + 1)); cbn [Fnum Fexp]; auto; [|apply Z.le_trans with (Fexp f); [exact E3|lia]].
  rewrite E1. unfold F2R. cbn [Fnum Fexp]. rewrite bpow_plus. replace (bpow radix2 1) with 2 by reflexivity. ring.
Qed.
(** doubling is exact up to overflow *)
Lemma dbl_le (x : b64) c : nn x -> c < maxR -> ev (bmul (bofZ 2) x) <= c -> 2 * ev x <= c.
Proof.
  intros N Hc H. destruct (bofZ_R 2 ltac:(sm)) as [A B]. pose proof maxR_pos. assert (P : bpos (bofZ 2)) by (split; [auto|lra]).
  destruct (nn_cases x N) as [Fx | [-> | ->]].
  - rewrite (proj2 (mul_ff _ x B Fx)), A in H. unfold rc in H. rewrite rnd_fmt in H by (apply fmt2, generic_format_B2R).
    rewrite ev_fin by auto. revert H. unfold Rmax, Rmin. repeat destruct Rle_dec; lra.
  - rewrite (mull_inf _ _ P) in H. rewrite ev_p in *. lra.
  - rewrite (mull_inf _ _ P) in H. rewrite ev_m in *. lra.
Qed.
Lemma dbl_ge (x : b64) c : nn x -> - maxR < c -> c <= ev (bmul (bofZ 2) x) -> c <= 2 * ev x.
Proof.
  intros N Hc H. destruct (bofZ_R 2 ltac:(sm)) as [A B]. pose proof maxR_pos. assert (P : bpos (bofZ 2)) by (split; [auto|lra]).
  destruct (nn_cases x N) as [Fx | [-> | ->]].
  - rewrite (proj2 (mul_ff _ x B Fx)), A in H. unfold rc in H. rewrite rnd_fmt in H by (apply fmt2, generic_format_B2R).
    rewrite ev_fin by auto. revert H. unfold Rmax, Rmin. repeat destruct Rle_dec; lra.
  - rewrite (mull_inf _ _ P) in H. rewrite ev_p in *. lra.
  - rewrite (mull_inf _ _ P) in H. rewrite ev_m in *. lra.
Qed.

Lemma incr_ev lo hi a b f : nn lo -> nn hi -> b64_incr lo hi a b f ->
  (forall x, nn x -> ev lo <= ev x <= ev hi -> nn (f x) /\ ev a <= ev (f x) <= ev b) /\
  (forall x y, nn x -> nn y -> ev lo <= ev x -> ev x <= ev y -> ev y <= ev hi -> ev (f x) <= ev (f y)).
Proof.
  intros Nl Nh [A B]. split.
  - intros x N H. destruct (A x) as [U V]; try (apply leb_ev; intuition). apply leb_ev in U, V. intuition.
  - intros x y Nx Ny L1 L2 L3. assert (Q : Bleb (f x) (f y) = true) by (apply B; apply leb_ev; intuition lra). apply leb_ev in Q. tauto.
Qed.
(** zero below a threshold *)
Lemma inc01_thr (G : b64 -> b64) c :
  (forall x, nn x -> ev x < c -> G x = bofZ 0) ->
  (forall x, nn x -> c <= ev x -> nn (G x) /\ 0 <= ev (G x) <= 1) ->
  (forall x y, nn x -> nn y -> c <= ev x -> ev x <= ev y -> ev (G x) <= ev (G y)) -> inc01 G.
Proof.
  intros A B C. destruct (ev_Z 0 ltac:(sm)) as [Z0 E0].
  assert (A' : forall x, nn x -> nn (G x) /\ 0 <= ev (G x) <= 1).
  { intros x N. destruct (Rlt_dec (ev x) c) as [L|L]; [rewrite A by auto; rewrite E0; split; auto; lra|]. apply B; auto. lra. }
  split; auto. intros x y Nx Ny L. destruct (Rlt_dec (ev x) c) as [L1|L1].
  - rewrite (A x) by auto. rewrite E0. now apply A'.
  - apply C; auto. lra.
Qed.
(** one above a second threshold *)
Lemma step_hi (G : b64 -> b64) c d : c <= d ->
  (forall x, nn x -> ev x < c -> G x = bofZ 0) -> (forall x, nn x -> d <= ev x -> c <= ev x -> G x = bofZ 1) ->
  (forall x, nn x -> c <= ev x < d -> nn (G x) /\ 0 <= ev (G x) <= 1) ->
  (forall x y, nn x -> nn y -> c <= ev x -> ev x <= ev y -> ev y < d -> ev (G x) <= ev (G y)) -> inc01 G.
Proof.
  intros CD A D B C. destruct (ev_Z 1 ltac:(sm)) as [Z1 E1].
  assert (B' : forall x, nn x -> c <= ev x -> nn (G x) /\ 0 <= ev (G x) <= 1).
  { intros x N L. destruct (Rle_dec d (ev x)) as [L1|L1]; [rewrite D by auto; rewrite E1; split; auto; lra|]. apply B; auto. lra. }
  apply (inc01_thr G c); auto. intros x y Nx Ny L1 L2.
  destruct (Rle_dec d (ev y)) as [L3|L3].
  - rewrite (D y) by (auto; lra). rewrite E1. now apply B'.
  - apply C; auto. lra.
Qed.

Section CDF2.
Variable F : TF.
Notation NB := (B64_Num F).
Local Notation atan_ok := (SpecB64.atan_ok F).
Local Notation expm1_ok := (SpecB64.expm1_ok F).
Local Notation pow_ok := (SpecB64.pow_ok F).
Local Notation incgamma_ok := (SpecB64.incgamma_ok F).
Local Notation incbeta_ok := (SpecB64.incbeta_ok F).
Local Notation mono f := (forall x y, nn x -> nn y -> ev x <= ev y -> ev (f x) <= ev (f y)).
Ltac flags := rewrite ?posinf_fin, ?neginf_fin, ?inf_fin by (auto; try apply eps_pos; match goal with H : bpos ?c |- bfin ?c => apply H end).

Lemma eps_lt x : nn x -> (ltb (Num:=NB) x (epsilon (Num:=NB)) = true <-> ev x < ev beps).
Proof. intros N. change (ltb (Num:=NB) x (epsilon (Num:=NB))) with (Bltb x beps). apply ltb_ev; auto. apply nn_fin, eps_pos. Qed.
Lemma eps_lt_f x : nn x -> (ltb (Num:=NB) x (epsilon (Num:=NB)) = false <-> ev beps <= ev x).
Proof. intros N. change (ltb (Num:=NB) x (epsilon (Num:=NB))) with (Bltb x beps). apply ltb_ev_f; auto. apply nn_fin, eps_pos. Qed.
Lemma ev_eps : 0 < ev beps. Proof. destruct eps_pos as [A B]. now rewrite ev_fin. Qed.
Lemma eps_max : ev beps < maxR. Proof. pose proof (fin_lt _ (proj1 eps_pos)). lra. Qed.
Lemma z0 : nn (bofZ 0) /\ ev (bofZ 0) = 0. Proof. exact (ev_Z 0 ltac:(sm)). Qed.
Lemma z1 : nn (bofZ 1) /\ ev (bofZ 1) = 1. Proof. exact (ev_Z 1 ltac:(sm)). Qed.

(** *** log-normal *)
Lemma plnorm_inc mu sigma : sym_fun (t_erf F) -> b64_pos (t_SQRT_2 F) ->
  b64_incr (bofZ 0) plus_inf minus_inf plus_inf (t_log F) -> bfin mu -> bpos sigma ->
  inc01 (fun x => plnorm (N:=NB) x mu sigma false).
Proof.
  intros He Hs Hl Fm Ps. destruct (pnorm_inc F mu sigma He Hs Fm Ps) as [P1 P2].
  destruct z0 as [Z0 E0]. destruct (incr_ev _ plus_inf _ _ _ Z0 eq_refl Hl) as [L1 L2]. rewrite E0 in L1, L2.
  pose proof ev_eps as Pe.
  assert (S : forall x, nn x -> lnorm_sanity3 (N:=NB) x mu sigma = true).
  { intros x N. unfold lnorm_sanity3. change (lnorm_sanity2 (N:=NB) mu sigma) with (norm_sanity2 (N:=NB) mu sigma). rewrite ls_sanity, (nan_nn F x) by auto. auto. }
  assert (B : forall x, ev x <= ev plus_inf) by (intros; apply (ev_bound x)).
  apply (inc01_thr _ (ev beps)).
  - intros x N L. unfold plnorm. rewrite S by auto. cbn [negb]. apply (eps_lt x N) in L. now rewrite L.
  - intros x N L. unfold plnorm. rewrite S by auto. cbn [negb]. rewrite (proj2 (eps_lt_f x N) L). apply P1. apply L1; auto. split; [lra|auto].
  - intros x y Nx Ny L L'. unfold plnorm. rewrite !S by auto. cbn [negb].
    rewrite (proj2 (eps_lt_f x Nx) L), (proj2 (eps_lt_f y Ny) ltac:(lra)).
    apply P2; try (apply L1; auto; split; [lra|auto]). apply L2; auto. lra.
Qed.

(** *** Cauchy *)
Lemma mi_pi x : nn x -> ev minus_inf <= ev x <= ev plus_inf. Proof. intros _. apply ev_bound. Qed.
Lemma half_plus q : nn q -> - / 2 <= ev q <= / 2 ->
  nn (badd (blit (1#2)) q) /\ ev (badd (blit (1#2)) q) = rc (/ 2 + ev q) /\ 0 <= ev (badd (blit (1#2)) q) <= 1.
Proof.
  intros N H. pose proof maxR_1. destruct half_R as [Hf Hr].
  destruct (fin_of q (- / 2) (/ 2) N H ltac:(lra) ltac:(lra)) as [Fq H'].
  destruct (add_ff _ q Hf Fq) as [A B]. rewrite Hr in B. rewrite (ev_fin q) in * by auto.
  split; auto. split; auto. rewrite B. apply (rc_range 0 1); try sm. lra.
Qed.
Lemma atan_q : atan_ok -> b64_pos (t_PI F) ->
  (forall z, nn z -> nn (bdiv (t_atan F z) (t_PI F)) /\ - / 2 <= ev (bdiv (t_atan F z) (t_PI F)) <= / 2) /\
  mono (fun z => bdiv (t_atan F z) (t_PI F)).
Proof.
  intros [H1 H2] Hp. apply pos_bpos in Hp. destruct Hp as [Fp Pp] eqn:EE.
  destruct (incr_ev minus_inf plus_inf _ _ _ eq_refl eq_refl H1) as [A1 A2].
  destruct (incr_ev minus_inf plus_inf _ _ _ eq_refl eq_refl H2) as [B1 _].
  pose proof (fin_lt _ Fp) as Bp. rewrite ev_fin in Bp by auto.
  split.
  - intros z N. destruct (A1 z N (mi_pi z N)) as [Na _]. destruct (B1 z N (mi_pi z N)) as [_ [C1 C2]].
    rewrite ev_opp in C1 by now apply nn_fin. rewrite !(ev_fin (t_PI F)) in * by auto.
    apply dbl_ge in C1; [|auto|lra]. apply dbl_le in C2; [|auto|lra].
    split; [now apply bdiv_r_nn|].
    destruct (fin_of (t_atan F z) (- B2R (t_PI F) / 2) (B2R (t_PI F) / 2) Na ltac:(lra) ltac:(lra) ltac:(lra)) as [Fa [D1 D2]].
    rewrite (proj2 (div_ff _ _ Fa Fp ltac:(lra))).
    assert (IP : 0 < / B2R (t_PI F)) by now apply Rinv_0_lt_compat.
    assert (I1 : B2R (t_PI F) * / B2R (t_PI F) = 1) by (apply Rinv_r; lra).
    assert (U : B2R (t_atan F z) / B2R (t_PI F) <= / 2) by (unfold Rdiv in *; nra).
    assert (L : - / 2 <= B2R (t_atan F z) / B2R (t_PI F)) by (unfold Rdiv in *; nra).
    apply rc_mono in U, L. rewrite rc_half in U.
    replace (rc (- / 2)) with (- / 2) in L; [lra|].
    pose proof rc_half as Q. pose proof maxR_1. rewrite rc_in in Q by (pose proof (rc_half) as Q'; unfold rc in Q'; revert Q'; unfold Rmax, Rmin; repeat destruct Rle_dec; intros; try lra; apply Rabs_def1; lra).
    rewrite rc_in; unfold rnd in *; rewrite round_NE_opp, Q; auto. rewrite Rabs_Ropp, Rabs_pos_eq; lra.
  - intros z w Nz Nw L. apply bdiv_r; auto; try (apply in_dom; apply A1; auto; apply mi_pi; auto).
    apply A2; auto; apply mi_pi; auto.
Qed.
Lemma cauchy_fun : atan_ok -> b64_pos (t_PI F) ->
  (forall z, nn z -> nn (pcauchy_compute (N:=NB) z) /\ 0 <= ev (pcauchy_compute (N:=NB) z) <= 1) /\ mono (pcauchy_compute (N:=NB)).
Proof.
  intros Ha Hp. destruct (atan_q Ha Hp) as [A B].
  assert (E : forall z, pcauchy_compute (N:=NB) z = badd (blit (1#2)) (bdiv (t_atan F z) (t_PI F))) by reflexivity.
  split.
  - intros z N. rewrite E. destruct (A z N) as [U V]. destruct (half_plus _ U V) as (X & _ & Y). auto.
  - intros z w Nz Nw L. rewrite !E. destruct (A z Nz) as [U V], (A w Nw) as [U' V'].
    destruct (half_plus _ U V) as (_ & X & _), (half_plus _ U' V') as (_ & X' & _). rewrite X, X'. apply rc_mono. apply Rplus_le_compat_l. now apply B.
Qed.
Lemma pcauchy_inc mu sigma : atan_ok -> b64_pos (t_PI F) -> bfin mu -> bpos sigma ->
  inc01 (fun x => pcauchy (N:=NB) x mu sigma false).
Proof.
  intros Ha Hp Fm Ps. destruct (cauchy_fun Ha Hp) as [A B]. destruct (z_mono mu sigma Fm Ps) as [Nz Mz].
  assert (E : forall x, bfin x -> pcauchy (N:=NB) x mu sigma false = pcauchy_compute (N:=NB) (bdiv (bsub x mu) sigma)).
  { intros x Fx. unfold pcauchy, cauchy_sanity3. change (cauchy_sanity2 (N:=NB) mu sigma) with (norm_sanity2 (N:=NB) mu sigma). rewrite ls_sanity, (nan_nn F x) by (auto; now apply nn_fin). cbn [negb andb].
    unfold any_inf3. rewrite !inf_fin by (auto; apply Ps). reflexivity. }
  apply inc01_cap.
  - intros x Fx. rewrite E by auto. apply A, Nz, nn_fin, Fx.
  - intros x y Fx Fy L. rewrite !E by auto. apply B; try (apply Nz, nn_fin; auto). apply Mz; auto using nn_fin. now rewrite !ev_fin.
  - unfold pcauchy, cauchy_sanity3. change (cauchy_sanity2 (N:=NB) mu sigma) with (norm_sanity2 (N:=NB) mu sigma). rewrite ls_sanity by auto. cbn [negb andb Num.is_nan B64_Num bisnan pI].
    unfold any_inf3, pcauchy_limit_vals, all_posinf2, all_neginf2. rewrite (posinf_fin F sigma), (posinf_fin F mu), (neginf_fin F mu) by (auto; apply Ps). reflexivity.
  - unfold pcauchy, cauchy_sanity3. change (cauchy_sanity2 (N:=NB) mu sigma) with (norm_sanity2 (N:=NB) mu sigma). rewrite ls_sanity by auto. cbn [negb andb Num.is_nan B64_Num bisnan mI].
    unfold any_inf3, pcauchy_limit_vals, all_posinf2, all_neginf2. rewrite (posinf_fin F sigma), (posinf_fin F mu), (neginf_fin F mu) by (auto; apply Ps). reflexivity.
Qed.
(** *** Student t with one degree of freedom, and with infinitely many *)
Lemma pt1_inc : atan_ok -> b64_pos (t_PI F) -> inc01 (fun x => pt (N:=NB) x (bofZ 1) false).
Proof.
  intros Ha Hp. destruct (cauchy_fun Ha Hp) as [A B].
  assert (E : forall x, bfin x -> pt (N:=NB) x (bofZ 1) false = pcauchy_compute (N:=NB) x).
  { intros x Fx. unfold pt, t_sanity2. rewrite (nan_nn F x) by now apply nn_fin. change (t_sanity1 (N:=NB) (bofZ 1)) with true. cbn [negb andb].
    rewrite posinf_fin, neginf_fin by auto. reflexivity. }
  apply inc01_cap.
  - intros x Fx. rewrite E by auto. apply A, nn_fin, Fx.
  - intros x y Fx Fy L. rewrite !E by auto. apply B; auto using nn_fin. now rewrite !ev_fin.
  - reflexivity.
  - reflexivity.
Qed.
Lemma ptinf_inc : sym_fun (t_erf F) -> b64_pos (t_SQRT_2 F) -> inc01 (fun x => pt (N:=NB) x pI false).
Proof.
  intros He Hs. destruct (bofZ_R 0 ltac:(sm)) as [A0 F0], (bofZ_R 1 ltac:(sm)) as [A1 F1].
  assert (P1 : bpos (bofZ 1)) by (split; [auto|lra]).
  destruct (pnorm_inc F (bofZ 0) (bofZ 1) He Hs F0 P1) as [A B].
  assert (E : forall x, bfin x -> pt (N:=NB) x pI false = pnorm (N:=NB) x (bofZ 0) (bofZ 1) false).
  { intros x Fx. unfold pt, t_sanity2. rewrite (nan_nn F x) by now apply nn_fin. change (t_sanity1 (N:=NB) pI) with true. cbn [negb andb].
    rewrite posinf_fin, neginf_fin by auto. reflexivity. }
  apply inc01_cap.
  - intros x Fx. rewrite E by auto. apply A, nn_fin, Fx.
  - intros x y Fx Fy L. rewrite !E by auto. apply B; auto using nn_fin. now rewrite !ev_fin.
  - reflexivity.
  - reflexivity.
Qed.

(** *** logistic *)
Lemma dbl_pos sigma : bpos sigma -> bfin (bmul (bofZ 2) sigma) -> bpos (bmul (bofZ 2) sigma).
Proof.
  intros [Fs Ps] Ff. split; auto. destruct (bofZ_R 2 ltac:(sm)) as [A B].
  rewrite <- ev_fin by auto. rewrite (proj2 (mul_ff _ sigma B Fs)), A.
  apply Rlt_le_trans with (rc (B2R sigma)); [|apply rc_mono; lra]. rewrite <- (ev_fin sigma Fs), rc_ev by auto. now rewrite ev_fin.
Qed.
Lemma plogis_inc mu sigma : sym_fun (t_tanh F) -> bfin mu -> bpos sigma -> bfin (bmul (bofZ 2) sigma) ->
  inc01 (fun x => plogis (N:=NB) x mu sigma false).
Proof.
  intros He Fm Ps F2. destruct (dot_incr _ _ _ He ltac:(sm) ltac:(sm)) as [Re Me].
  pose proof (dbl_pos sigma Ps F2) as P2. destruct (z_mono mu _ Fm P2) as [Nz Mz].
  assert (E : forall x, bfin x -> plogis (N:=NB) x mu sigma false = bmul (blit (1#2)) (badd (bofZ 1) (t_tanh F (bdiv (bsub x mu) (bmul (bofZ 2) sigma))))).
  { intros x Fx. unfold plogis, logis_sanity3. change (logis_sanity2 (N:=NB) mu sigma) with (norm_sanity2 (N:=NB) mu sigma). rewrite ls_sanity, (nan_nn F x) by (auto; now apply nn_fin). cbn [negb andb].
    unfold any_inf3. rewrite !inf_fin by (auto; apply Ps). cbn [orb]. change (eqb sigma (ofZ 0)) with (Beqb sigma (bofZ 0)). rewrite eq0_f by auto. reflexivity. }
  apply inc01_cap.
  - intros x Fx. rewrite E by auto. pose proof (Re _ (Nz x (nn_fin _ Fx))) as [N1 R1]. destruct (half_one_plus _ N1 R1) as (A & _ & B). auto.
  - intros x y Fx Fy L. rewrite !E by auto.
    pose proof (Re _ (Nz x (nn_fin _ Fx))) as [N1 R1]. pose proof (Re _ (Nz y (nn_fin _ Fy))) as [N2 R2].
    destruct (half_one_plus _ N1 R1) as (_ & E1 & _), (half_one_plus _ N2 R2) as (_ & E2 & _). rewrite E1, E2.
    apply rc_mono. apply Rmult_le_compat_l; [lra|]. apply rc_mono. apply Rplus_le_compat_l.
    apply Me; auto using nn_fin. apply Mz; auto using nn_fin. now rewrite !ev_fin.
  - unfold plogis, logis_sanity3. change (logis_sanity2 (N:=NB) mu sigma) with (norm_sanity2 (N:=NB) mu sigma). rewrite ls_sanity by auto. cbn [negb andb Num.is_nan B64_Num bisnan pI].
    unfold any_inf3, plogis_limit_vals, all_posinf2, all_neginf2. rewrite (posinf_fin F sigma), (posinf_fin F mu), (neginf_fin F mu) by (auto; apply Ps). reflexivity.
  - unfold plogis, logis_sanity3. change (logis_sanity2 (N:=NB) mu sigma) with (norm_sanity2 (N:=NB) mu sigma). rewrite ls_sanity by auto. cbn [negb andb Num.is_nan B64_Num bisnan mI].
    unfold any_inf3, plogis_limit_vals, all_posinf2, all_neginf2. rewrite (posinf_fin F sigma), (posinf_fin F mu), (neginf_fin F mu) by (auto; apply Ps). reflexivity.
Qed.

(** *** exponential *)
Lemma neg_mul rate x : bpos rate -> nn x -> 0 < ev x -> nn (bmul (Bopp rate) x) /\ ev (bmul (Bopp rate) x) <= 0.
Proof.
  intros P N L. destruct P as [Fr Pr] eqn:EE. destruct (nn_cases x N) as [Fx | [-> | ->]].
  - assert (Fo : bfin (Bopp rate)) by now rewrite is_finite_Bopp. destruct (mul_ff _ x Fo Fx) as [A B]. split; auto. rewrite B, B2R_Bopp.
    rewrite <- rc_0. apply rc_mono. rewrite ev_fin in L by auto. nra.
  - destruct (bpos_shape rate P) as (m & e & Bd & ->). cbn. pose proof maxR_pos. split; [reflexivity|lra].
  - rewrite ev_m in L. pose proof maxR_pos. lra.
Qed.
Lemma neg_mul_mono rate x y : bpos rate -> nn x -> nn y -> 0 < ev x -> ev x <= ev y -> ev (bmul (Bopp rate) y) <= ev (bmul (Bopp rate) x).
Proof.
  intros P Nx Ny L L'. destruct P as [Fr Pr] eqn:EE. pose proof maxR_pos as M.
  assert (Fo : bfin (Bopp rate)) by now rewrite is_finite_Bopp.
  destruct (nn_cases y Ny) as [Fy | [-> | ->]].
  - destruct (nn_cases x Nx) as [Fx | [-> | ->]].
    + rewrite (proj2 (mul_ff _ x Fo Fx)), (proj2 (mul_ff _ y Fo Fy)), B2R_Bopp. apply rc_mono. rewrite !ev_fin in L' by auto. nra.
    + pose proof (fin_lt _ Fy). rewrite ev_p in *. lra.
    + rewrite ev_m in *. lra.
  - destruct (bpos_shape rate P) as (m & e & Bd & ->). change (ev (bmul (Bopp (B754_finite false m e Bd)) (B754_infinity false))) with (- maxR). apply ev_bound.
  - rewrite ev_m in *. lra.
Qed.
Lemma neg_expm1 z : expm1_ok -> nn z -> ev z <= 0 -> nn (Bopp (t_expm1 F z)) /\ ev (Bopp (t_expm1 F z)) = - ev (t_expm1 F z) /\ 0 <= ev (Bopp (t_expm1 F z)) <= 1.
Proof.
  intros H N L. destruct z0 as [Z0 E0]. destruct (incr_ev minus_inf _ _ _ _ eq_refl Z0 H) as [A _]. rewrite E0 in A.
  destruct (A z N) as [N1 R1]; [split; [apply ev_bound|lra]|]. rewrite (proj2 (ev_Z (-1) ltac:(sm))) in R1.
  destruct (nn_opp _ N1) as [U V]. split; auto. split; auto. rewrite V. lra.
Qed.
Lemma neg_expm1_mono z w : expm1_ok -> nn z -> nn w -> ev z <= ev w -> ev w <= 0 -> ev (Bopp (t_expm1 F w)) <= ev (Bopp (t_expm1 F z)).
Proof.
  intros H Nz Nw L L0. destruct z0 as [Z0 E0]. destruct (incr_ev minus_inf _ _ _ _ eq_refl Z0 H) as [_ A]. rewrite E0 in A.
  destruct (neg_expm1 z H Nz ltac:(lra)) as (_ & -> & _), (neg_expm1 w H Nw L0) as (_ & -> & _).
  assert (Q : ev (t_expm1 F z) <= ev (t_expm1 F w)) by (apply A; auto; apply ev_bound). lra.
Qed.
Lemma pexp_inc rate : expm1_ok -> bpos rate -> inc01 (fun x => pexp (N:=NB) x rate false).
Proof.
  intros H Pr. destruct z0 as [Z0 E0].
  assert (S : forall x, nn x -> pexp (N:=NB) x rate false = if Bleb x (bofZ 0) then bofZ 0 else Bopp (t_expm1 F (bmul (Bopp rate) x))).
  { intros x N. unfold pexp, exp_sanity2, exp_sanity1. rewrite (nan_nn F x), (nan_nn F rate) by (auto; apply nn_fin, Pr).
    change (ltb rate (ofZ 0)) with (Bltb rate (bofZ 0)). rewrite lt0_f by (try apply Pr; left; apply Pr). cbn [negb andb log_if].
    unfold pexp_compute. rewrite posinf_fin by apply Pr. reflexivity. }
  assert (B : forall x, nn x -> (Bleb x (bofZ 0) = true /\ ev x <= 0) \/ (Bleb x (bofZ 0) = false /\ 0 < ev x)).
  { intros x N. destruct (Bleb x (bofZ 0)) eqn:Q; [left|right]; split; auto; [apply leb_ev in Q; lra|]. apply leb_ev_f in Q; auto; lra. }
  split.
  - intros x N. rewrite S by auto. destruct (B x N) as [[-> L]|[-> L]]; [rewrite E0; split; auto; lra|].
    destruct (neg_mul rate x Pr N L) as [U V]. destruct (neg_expm1 _ H U V) as (X & _ & Y). auto.
  - intros x y Nx Ny L. rewrite !S by auto. destruct (B x Nx) as [[-> L1]|[-> L1]], (B y Ny) as [[-> L2]|[-> L2]]; try lra.
    + destruct (neg_mul rate y Pr Ny L2) as [U V]. destruct (neg_expm1 _ H U V) as (X & _ & Y). lra.
    + destruct (neg_mul rate x Pr Nx L1) as [U V]. apply neg_expm1_mono; auto; [now apply neg_mul|]. now apply neg_mul_mono.
Qed.

(** *** Weibull *)
Lemma big_eps_pos c : big_eps c -> b64_pos c /\ bpos c /\ ev beps <= ev c.
Proof.
  intros [A B]. apply leb_ev in A. destruct A as (_ & Nc & L). pose proof ev_eps.
  assert (P : b64_pos c). { split; auto. destruct z0 as [Z0 E0]. apply ltb_ev; auto. lra. }
  split; auto. split; auto. now apply pos_bpos.
Qed.
Lemma quot_scale scale x : bpos scale -> nn x -> 0 < ev x -> nn (bdiv x scale) /\ 0 <= ev (bdiv x scale).
Proof.
  intros P N L. split; [now apply bdiv_r_nn|]. destruct z0 as [Z0 E0], (bofZ_R 0 ltac:(sm)) as [Z0R Z0F].
  apply Rle_trans with (ev (bdiv (bofZ 0) scale)).
  - destruct P as [Fs Ps]. rewrite (proj2 (div_ff _ _ Z0F Fs ltac:(lra))), Z0R. unfold Rdiv. rewrite Rmult_0_l, rc_0. lra.
  - apply bdiv_r; auto; try now apply in_dom. lra.
Qed.
Lemma quot_scale_mono scale x y : bpos scale -> nn x -> nn y -> ev x <= ev y -> ev (bdiv x scale) <= ev (bdiv y scale).
Proof. intros P Nx Ny L. apply bdiv_r; auto; now apply in_dom. Qed.
Lemma pweibull_inc shape scale : expm1_ok -> pow_ok -> big_eps shape -> big_eps scale ->
  inc01 (fun x => pweibull (N:=NB) x shape scale false).
Proof.
  intros H Hp Bsh Bsc. destruct (big_eps_pos _ Bsh) as (Psh & Psh' & Esh), (big_eps_pos _ Bsc) as (Psc & Psc' & Esc).
  destruct z0 as [Z0 E0]. destruct (incr_ev _ plus_inf _ _ _ Z0 eq_refl (Hp shape Psh)) as [W1 W2]. rewrite E0 in W1, W2. pose proof ev_eps as Pe. pose proof eps_max as Me.
  assert (S : forall x, nn x -> weibull_sanity3 (N:=NB) x shape scale = true).
  { intros x N. unfold weibull_sanity3, weibull_sanity2, any_nan2. rewrite (nan_nn F x), (nan_nn F shape), (nan_nn F scale) by (auto; apply nn_fin; auto; apply Psh' || apply Psc').
    cbn [orb negb andb]. rewrite (proj2 (eps_lt_f shape (nn_fin _ (proj1 Psh'))) Esh), (proj2 (eps_lt_f scale (nn_fin _ (proj1 Psc'))) Esc). auto. }
  assert (K : forall x, nn x -> ev beps <= ev x < maxR -> bfin x /\ pweibull (N:=NB) x shape scale false = Bopp (t_expm1 F (Bopp (t_pow F (bdiv x scale) shape)))).
  { intros x N L. assert (Fx : bfin x) by (apply ev_lt_fin; auto; lra). split; auto. unfold pweibull. rewrite S by auto. cbn [negb].
    rewrite (proj2 (eps_lt_f x N)) by lra. unfold any_inf3. rewrite !inf_fin by (auto; apply Psh' || apply Psc'). reflexivity. }
  assert (V : forall x, nn x -> ev beps <= ev x -> nn (t_pow F (bdiv x scale) shape) /\ 0 <= ev (t_pow F (bdiv x scale) shape)).
  { intros x N L. destruct (quot_scale scale x Psc' N ltac:(lra)) as [A B]. destruct (W1 _ A) as [C D]; [split; auto; apply ev_bound|]. split; auto. lra. }
  apply (step_hi _ (ev beps) maxR); [lra|..].
  - intros x N L. unfold pweibull. rewrite S by auto. cbn [negb]. now rewrite (proj2 (eps_lt x N)).
  - intros x N L1 L2. assert (x = B754_infinity false) as -> by (apply ev_max; auto; pose proof (ev_bound x); lra).
    unfold pweibull. rewrite S by auto. cbn [negb]. change (ltb (B754_infinity false) epsilon) with false. cbn iota.
    unfold any_inf3, pweibull_limit_vals. rewrite (posinf_fin F scale) by apply Psc'. reflexivity.
  - intros x N L. destruct (K x N L) as [Fx ->]. destruct (V x N ltac:(lra)) as [A B]. destruct (nn_opp _ A) as [C D].
    destruct (neg_expm1 _ H C ltac:(lra)) as (X & _ & Y). auto.
  - intros x y Nx Ny L1 L2 L3. destruct (K x Nx ltac:(lra)) as [Fx ->], (K y Ny ltac:(lra)) as [Fy ->].
    destruct (V x Nx ltac:(lra)) as [A B], (V y Ny ltac:(lra)) as [A' B']. destruct (nn_opp _ A) as [C D], (nn_opp _ A') as [C' D'].
    apply neg_expm1_mono; auto; try lra. rewrite D, D'. apply Ropp_le_contravar. apply W2; try (apply bdiv_r_nn; auto); try apply ev_bound.
    + apply quot_scale; auto. lra.
    + now apply quot_scale_mono.
Qed.

(** *** gamma, chi-squared *)
Lemma bool0 c : bfin c -> 0 <= B2R c -> (Beqb c (bofZ 0) = true /\ B2R c = 0) \/ (Beqb c (bofZ 0) = false /\ b64_pos c).
Proof.
  intros Fc Pc. destruct (bofZ_R 0 ltac:(sm)) as [Z0 Zf]. destruct (Beqb c (bofZ 0)) eqn:Q; [left|right]; split; auto.
  - apply beqb_R in Q; auto; lra.
  - apply beqb_R_f in Q; auto. split; [apply bltb_R; auto; lra|]. apply ltb_ev; [now apply nn_fin|reflexivity|]. unfold plus_inf. rewrite ev_p. apply fin_lt; auto.
Qed.
Lemma pgamma_inc shape scale : incgamma_ok -> bfin shape -> 0 <= B2R shape -> big_eps scale ->
  inc01 (fun x => pgamma (N:=NB) x shape scale false).
Proof.
  intros H Fsh Psh Bsc. destruct (big_eps_pos _ Bsc) as (Psc & Psc' & Esc). destruct z0 as [Z0 E0], z1 as [Z1 E1]. pose proof ev_eps as Pe. pose proof eps_max as Me.
  assert (S : forall x, nn x -> gamma_sanity3 (N:=NB) x shape scale = true).
  { intros x N. unfold gamma_sanity3, gamma_sanity2, any_nan2. rewrite (nan_nn F x), (nan_nn F shape), (nan_nn F scale) by (auto; apply nn_fin; auto; apply Psc').
    cbn [orb negb andb]. change (ltb shape (ofZ 0)) with (Bltb shape (bofZ 0)). rewrite lt0_f by auto.
    now rewrite (proj2 (eps_lt_f scale (nn_fin _ (proj1 Psc'))) Esc). }
  assert (AL : forall x, all_posinf2 (N:=NB) x scale = false).
  { intros x. unfold all_posinf2. rewrite (posinf_fin F scale) by apply Psc'. apply andb_false_r. }
  assert (L0 : forall x, nn x -> ev x < ev beps -> pgamma (N:=NB) x shape scale false = bofZ 0).
  { intros x N L. unfold pgamma. rewrite S, AL by auto. cbn [negb]. now rewrite (proj2 (eps_lt x N)). }
  assert (LI : pgamma (N:=NB) (B754_infinity false) shape scale false = bofZ 1).
  { unfold pgamma. rewrite S, AL by auto. cbn [negb]. change (ltb (B754_infinity false) epsilon) with false. cbn iota.
    unfold any_posinf3, pgamma_limit_vals, all_finite2, Num.is_finite. rewrite (posinf_fin F shape), (posinf_fin F scale), (nan_nn F shape), (nan_nn F scale), (inf_fin F shape), (inf_fin F scale) by (auto; try apply nn_fin; auto; apply Psc').
    change (eqb shape (ofZ 0)) with (Beqb shape (bofZ 0)). destruct (Beqb shape (bofZ 0)); reflexivity. }
  destruct (bool0 shape Fsh Psh) as [[Q _]|[Q Ppos]].
  - assert (K : forall x, nn x -> ev beps <= ev x -> pgamma (N:=NB) x shape scale false = bofZ 1).
    { intros x N L. unfold pgamma. rewrite S, AL by auto. cbn [negb]. rewrite (proj2 (eps_lt_f x N) L).
      unfold pgamma_limit_vals. change (eqb shape (ofZ 0)) with (Beqb shape (bofZ 0)). rewrite Q, orb_true_r. rewrite posinf_fin by apply Psc'. reflexivity. }
    apply (inc01_thr _ (ev beps)); auto; intros; rewrite !K by (auto; lra); rewrite ?E1; try split; auto; lra.
  - destruct (incr_ev _ plus_inf _ _ _ Z0 eq_refl (H shape Ppos)) as [W1 W2]. rewrite E0, E1 in *.
    assert (K : forall x, nn x -> ev beps <= ev x < maxR -> bfin x /\ pgamma (N:=NB) x shape scale false = t_incgamma F shape (bdiv x scale)).
    { intros x N L. assert (Fx : bfin x) by (apply ev_lt_fin; auto; lra). split; auto. unfold pgamma. rewrite S, AL by auto. cbn [negb].
      rewrite (proj2 (eps_lt_f x N)) by lra. unfold any_posinf3. rewrite !posinf_fin by (auto; apply Psc').
      change (eqb shape (ofZ 0)) with (Beqb shape (bofZ 0)). rewrite Q. reflexivity. }
    apply (step_hi _ (ev beps) maxR); [lra|..]; auto.
    + intros x N L1 L2. assert (x = B754_infinity false) as -> by (apply ev_max; auto; pose proof (ev_bound x); lra). auto.
    + intros x N L. destruct (K x N L) as [Fx ->]. destruct (quot_scale scale x Psc' N ltac:(lra)) as [A B]. apply W1; auto. split; auto. apply ev_bound.
    + intros x y Nx Ny L1 L2 L3. destruct (K x Nx ltac:(lra)) as [Fx ->], (K y Ny ltac:(lra)) as [Fy ->].
      destruct (quot_scale scale x Psc' Nx ltac:(lra)) as [A B], (quot_scale scale y Psc' Ny ltac:(lra)) as [A' B'].
      apply W2; auto; [now apply quot_scale_mono|apply ev_bound].
Qed.
Lemma pchisq_inc dof : incgamma_ok -> bfin dof -> 0 <= B2R dof -> b64_pos (bdiv dof (bofZ 2)) \/ B2R dof = 0 ->
  inc01 (fun x => pchisq (N:=NB) x dof false).
Proof.
  intros H Fd Pd Hh. destruct z0 as [Z0 E0], z1 as [Z1 E1]. pose proof ev_eps as Pe. pose proof eps_max as Me.
  destruct (bofZ_R 2 ltac:(sm)) as [A2 F2]. assert (P2 : bpos (bofZ 2)) by (split; [auto|lra]).
  assert (S : forall x, nn x -> chisq_sanity2 (N:=NB) x dof = true).
  { intros x N. unfold chisq_sanity2, chisq_sanity1. rewrite (nan_nn F x), (nan_nn F dof) by (auto; apply nn_fin; auto).
    cbn [negb andb]. change (ltb dof (ofZ 0)) with (Bltb dof (bofZ 0)). now rewrite lt0_f by auto. }
  assert (L0 : forall x, nn x -> ev x < ev beps -> pchisq (N:=NB) x dof false = bofZ 0).
  { intros x N L. unfold pchisq. rewrite S by auto. cbn [negb]. now rewrite (proj2 (eps_lt x N)). }
  assert (LI : pchisq (N:=NB) (B754_infinity false) dof false = bofZ 1).
  { unfold pchisq. rewrite S by auto. cbn [negb]. change (ltb (B754_infinity false) epsilon) with false. cbn iota.
    change (eqb dof (ofZ 0)) with (Beqb dof (bofZ 0)); destruct (Beqb dof (bofZ 0)); reflexivity. }
  destruct (bool0 dof Fd Pd) as [[Q _]|[Q Ppos]].
  - assert (K : forall x, nn x -> ev beps <= ev x -> pchisq (N:=NB) x dof false = bofZ 1).
    { intros x N L. unfold pchisq. rewrite S by auto. cbn [negb]. rewrite (proj2 (eps_lt_f x N) L).
      change (eqb dof (ofZ 0)) with (Beqb dof (bofZ 0)). rewrite Q. reflexivity. }
    apply (inc01_thr _ (ev beps)); auto; intros; rewrite !K by (auto; lra); rewrite ?E1; try split; auto; lra.
  - assert (Ppos' : b64_pos (bdiv dof (bofZ 2))).
    { destruct Hh as [Hh|Hh]; auto. apply pos_bpos in Ppos. destruct Ppos. lra. }
    destruct (incr_ev _ plus_inf _ _ _ Z0 eq_refl (H _ Ppos')) as [W1 W2]. rewrite E0, E1 in *.
    assert (K : forall x, nn x -> ev beps <= ev x < maxR -> bfin x /\ pchisq (N:=NB) x dof false = t_incgamma F (bdiv dof (bofZ 2)) (bdiv x (bofZ 2))).
    { intros x N L. assert (Fx : bfin x) by (apply ev_lt_fin; auto; lra). split; auto. unfold pchisq. rewrite S by auto. cbn [negb].
      rewrite (proj2 (eps_lt_f x N)) by lra. rewrite !posinf_fin by auto.
      change (eqb dof (ofZ 0)) with (Beqb dof (bofZ 0)). rewrite Q. reflexivity. }
    apply (step_hi _ (ev beps) maxR); [lra|..]; auto.
    + intros x N L1 L2. assert (x = B754_infinity false) as -> by (apply ev_max; auto; pose proof (ev_bound x); lra). auto.
    + intros x N L. destruct (K x N L) as [Fx ->]. destruct (quot_scale (bofZ 2) x P2 N ltac:(lra)) as [A B]. apply W1; auto. split; auto. apply ev_bound.
    + intros x y Nx Ny L1 L2 L3. destruct (K x Nx ltac:(lra)) as [Fx ->], (K y Ny ltac:(lra)) as [Fy ->].
      destruct (quot_scale (bofZ 2) x P2 Nx ltac:(lra)) as [A B], (quot_scale (bofZ 2) y P2 Ny ltac:(lra)) as [A' B'].
      apply W2; auto; [now apply quot_scale_mono|apply ev_bound].
Qed.

(** *** beta *)
Lemma pbeta_inc a b : incbeta_ok -> b64_pos a -> b64_pos b -> inc01 (fun x => pbeta (N:=NB) x a b false).
Proof.
  intros H Pa Pb. pose proof (pos_bpos _ Pa) as Pa'. pose proof (pos_bpos _ Pb) as Pb'. destruct z0 as [Z0 E0], z1 as [Z1 E1].
  destruct (incr_ev _ _ _ _ _ Z0 Z1 (H a b Pa Pb)) as [W1 W2]. rewrite E0, E1 in *.
  assert (S : forall x, nn x -> pbeta (N:=NB) x a b false = if Bleb x (bofZ 0) then bofZ 0 else if Bleb (bofZ 1) x then bofZ 1 else t_incbeta F a b x).
  { intros x N. unfold pbeta, beta_sanity3, beta_sanity2, any_nan2. rewrite (nan_nn F x), (nan_nn F a), (nan_nn F b) by (auto; apply nn_fin; auto; apply Pa' || apply Pb').
    change (ltb a (ofZ 0)) with (Bltb a (bofZ 0)). change (ltb b (ofZ 0)) with (Bltb b (bofZ 0)). change (eqb a (ofZ 0)) with (Beqb a (bofZ 0)). change (eqb b (ofZ 0)) with (Beqb b (bofZ 0)).
    rewrite !lt0_f by (try apply Pa'; try apply Pb'; left; apply Pa' || apply Pb').
    rewrite !eq0_f by auto. unfold any_posinf2. rewrite !posinf_fin by (apply Pa' || apply Pb'). reflexivity. }
  assert (B : forall x, nn x -> (pbeta (N:=NB) x a b false = bofZ 0 /\ ev x <= 0) \/ (pbeta (N:=NB) x a b false = t_incbeta F a b x /\ 0 < ev x < 1) \/ (pbeta (N:=NB) x a b false = bofZ 1 /\ 1 <= ev x)).
  { intros x N. rewrite S by auto. destruct (Bleb x (bofZ 0)) eqn:Q; [left; split; auto; apply leb_ev in Q; lra|].
    apply leb_ev_f in Q; auto. destruct (Bleb (bofZ 1) x) eqn:Q1; [right; right; split; auto; apply leb_ev in Q1; lra|].
    apply leb_ev_f in Q1; auto. right; left. split; auto; lra. }
  split.
  - intros x N. destruct (B x N) as [[-> L]|[[-> L]|[-> L]]]; rewrite ?E0, ?E1; try (split; auto; lra). apply W1; auto. lra.
  - intros x y Nx Ny L.
    destruct (B x Nx) as [[-> L1]|[[-> L1]|[-> L1]]], (B y Ny) as [[-> L2]|[[-> L2]|[-> L2]]]; rewrite ?E0, ?E1; try lra; try (apply W1; auto; lra). apply W2; auto; lra.
Qed.
End CDF2.
