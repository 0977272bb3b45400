(** Densities evaluated in binary64, second part: Laplace, Cauchy, exponential, uniform, log-normal,
    logistic. *)
From Coq Require Import ZArith QArith Reals Bool Lra Lia.
From Verif Require Import Num Sanity Prob Dens B64 B64R B64Ord SpecB64 B64Cdf SpecB64D B64Mag B64Dens.
From Flocq Require Import Core IEEE754.BinarySingleNaN Plus_error.
Local Open Scope R_scope.

Section D2.
Variable F : TF.
Notation NB := (B64_Num F).
Notation okd := okd.

Lemma uni_fin (d : bool -> b64 -> b64) mu lf : log_std F -> bfin mu ->
  (forall x, nn x -> okd lf (d lf x)) ->
  (forall x, x = pI \/ x = mI -> d lf x = log_if (N:=NB) (bofZ 0) lf) ->
  (forall x y, bfin x -> bfin y -> ev x <= ev y -> ev y <= ev mu -> ev (d lf x) <= ev (d lf y)) ->
  (forall x y, bfin x -> bfin y -> ev mu <= ev x -> ev x <= ev y -> ev (d lf y) <= ev (d lf x)) ->
  b64_unimodal mu (d lf).
Proof.
  intros L Fm K I A B. pose proof maxR_pos. pose proof (fin_lt mu Fm) as Bm.
  assert (M : forall x y, x = pI \/ x = mI -> nn y -> ev (d lf x) <= ev (d lf y)).
  { intros x y Hx Ny. rewrite (I x Hx). apply lim_min; auto. now apply K. }
  apply uni_spec; [now apply nn_fin|intros x N; now apply K| |]; intros x y Nx Ny L1 L2.
  - destruct (nn_cases x Nx) as [Fx | [-> | ->]]; [|apply M; auto; now left|apply M; auto; now right].
    destruct (nn_cases y Ny) as [Fy | [-> | ->]]; [|rewrite ev_p in *; lra|rewrite ev_m in *; pose proof (fin_lt x Fx); lra]. auto.
  - destruct (nn_cases y Ny) as [Fy | [-> | ->]]; [|apply M; auto; now left|apply M; auto; now right].
    destruct (nn_cases x Nx) as [Fx | [-> | ->]]; [|rewrite ev_p in *; pose proof (fin_lt y Fy); lra|rewrite ev_m in *; lra]. auto.
Qed.
(** c - y with c below infinity and y not negative *)
Lemma sub_low_nn c y : nn c -> ev c < maxR -> nn y -> 0 <= ev y -> nn (bsub c y).
Proof. intros. pose proof maxR_pos. apply sub_nn; auto. lra. Qed.
Lemma sub_low_mono c y z : nn c -> ev c < maxR -> nn y -> nn z -> 0 <= ev y -> ev y <= ev z -> ev (bsub c z) <= ev (bsub c y).
Proof.
  intros Nc Hc Ny Nz P L. pose proof maxR_pos. destruct (nn_cases c Nc) as [Fc | [-> | ->]].
  - apply bsub_l; auto; now apply in_dom.
  - cbn [ev] in Hc. lra.
  - assert (Q : forall w, nn w -> 0 <= ev w -> bsub (B754_infinity true) w = B754_infinity true).
    { intros w Nw Pw. destruct (nn_cases w Nw) as [Fw | [-> | ->]]; [now rewrite subr_inf|reflexivity|cbn [ev] in Pw; lra]. }
    rewrite !Q; auto; lra.
Qed.
Lemma opp_low v : nn v -> - maxR < ev v -> nn (Bopp v) /\ ev (Bopp v) < maxR.
Proof. intros N H. destruct (opp_ev v N) as [A B]. rewrite B. split; auto. lra. Qed.
Lemma mul_ge_l c x : bfin c -> 1 <= B2R c -> bpos x -> nn (bmul x c) /\ B2R x <= ev (bmul x c).
Proof.
  intros Fc Hc [Fx Px]. destruct (mul_ff x c Fx Fc) as [N E]. split; auto. rewrite E, <- (ev_fin x Fx) at 1. rewrite <- (rc_ev x Fx). apply rc_mono. rewrite ev_fin by auto. nra.
Qed.
Lemma dbl_pos sigma : bpos sigma -> nn (bmul (bofZ 2) sigma) /\ 0 < ev (bmul (bofZ 2) sigma).
Proof.
  intros [Fs P]. destruct (bofZ_R 2 ltac:(sm)) as [E2 F2]. destruct (mul_ff _ sigma F2 Fs) as [N E]. split; auto. rewrite E, E2.
  apply Rlt_le_trans with (rc (ev sigma)); [rewrite rc_ev, ev_fin; auto|]. rewrite ev_fin by auto. apply rc_mono. lra.
Qed.

(** *** Laplace *)
Definition dl_y (x mu sigma : b64) : b64 := bdiv (Babs (bsub x mu)) sigma.
Definition dl_c (sigma : b64) : b64 := Bopp (t_log F (bmul (bofZ 2) sigma)).
Lemma dl_y_nn x mu sigma : bfin mu -> bpos sigma -> nn x -> nn (dl_y x mu sigma) /\ 0 <= ev (dl_y x mu sigma).
Proof.
  intros Fm P N. unfold dl_y. destruct (abs_ev (bsub x mu) (bsub_r_nn _ _ Fm N)) as [A B].
  split; [now apply bdiv_r_nn|]. apply div_ge0; auto. rewrite B. apply Rabs_pos.
Qed.
Lemma dl_c_low sigma : log_std F -> bpos sigma -> nn (dl_c sigma) /\ ev (dl_c sigma) < maxR.
Proof.
  intros L P. destruct (dbl_pos sigma P) as [N E]. destruct (log_ge F _ L N E) as [N1 E1].
  assert (- maxR < -1000) by (pose proof (bpow_lt radix2 10 1024 ltac:(lia)) as Q; fold maxR in Q; cbn in Q; lra).
  apply opp_low; auto. lra.
Qed.
Lemma laplace_norm3 x mu sigma : laplace_sanity3 (N:=NB) x mu sigma = norm_sanity3 (N:=NB) x mu sigma. Proof. reflexivity. Qed.
Lemma cauchy_norm3 x mu sigma : cauchy_sanity3 (N:=NB) x mu sigma = norm_sanity3 (N:=NB) x mu sigma. Proof. reflexivity. Qed.
Lemma logis_norm3 x mu sigma : logis_sanity3 (N:=NB) x mu sigma = norm_sanity3 (N:=NB) x mu sigma. Proof. reflexivity. Qed.
Lemma lnorm_norm3 x mu sigma : lnorm_sanity3 (N:=NB) x mu sigma = norm_sanity3 (N:=NB) x mu sigma. Proof. reflexivity. Qed.
Lemma dlaplace_fin x mu sigma lf : bfin x -> bfin mu -> bpos sigma ->
  dlaplace (N:=NB) x mu sigma lf = exp_if (N:=NB) (bsub (dl_c sigma) (dl_y x mu sigma)) (negb lf).
Proof.
  intros Fx Fm Ps. unfold dlaplace. rewrite laplace_norm3. unfold norm_sanity3. rewrite (ls_sanity F), (nan_nn F x) by (auto; now apply nn_fin). cbn [negb andb].
  unfold any_inf3. rewrite !inf_fin by (auto; apply Ps). cbn [orb].
  change (eqb sigma (ofZ 0)) with (Beqb sigma (bofZ 0)). rewrite eq0_f by auto. reflexivity.
Qed.
(** at the infinities the three limit tables agree *)
Lemma dlaplace_lim x mu sigma lf : any_inf3 (N:=NB) x mu sigma || eqb (Num:=NB) sigma (ofZ (Num:=NB) 0) = true -> dlaplace (N:=NB) x mu sigma lf = dnorm (N:=NB) x mu sigma lf.
Proof. intros H. unfold dlaplace, dnorm. rewrite laplace_norm3, H. reflexivity. Qed.
Lemma inf_any x mu sigma : x = pI \/ x = mI -> any_inf3 (N:=NB) x mu sigma || eqb (Num:=NB) sigma (ofZ (Num:=NB) 0) = true.
Proof. intros [-> | ->]; reflexivity. Qed.
Lemma sig_any x mu sigma : bfin sigma /\ B2R sigma = 0 \/ sigma = pI -> any_inf3 (N:=NB) x mu sigma || eqb (Num:=NB) sigma (ofZ (Num:=NB) 0) = true.
Proof.
  intros [[A B]| ->]; unfold any_inf3; [change (eqb (Num:=NB) sigma (ofZ (Num:=NB) 0)) with (Beqb sigma (bofZ 0)); rewrite eq0_t by auto; now rewrite orb_true_r|].
  change (is_inf (N:=NB) pI) with true. now rewrite !orb_true_r.
Qed.
Lemma dlaplace_okd mu sigma : exp_all_ok F -> log_std F -> bfin mu -> Bleb (bofZ 0) sigma = true ->
  forall lf x, nn x -> okd lf (dlaplace (N:=NB) x mu sigma lf).
Proof.
  intros E L Fm Hs lf x Nx. destruct (ge0_cases _ Hs) as [C | [P | C]].
  - rewrite dlaplace_lim by (apply sig_any; auto). apply dnorm_spec0; auto.
  - destruct (nn_cases x Nx) as [Fx | [-> | ->]].
    + rewrite dlaplace_fin by auto. apply okd_exp; auto. destruct (dl_c_low sigma L P), (dl_y_nn x mu sigma Fm P Nx). now apply sub_low_nn.
    + rewrite dlaplace_lim, dnorm_lim by (auto; apply inf_any; now left). now apply okd_log_0.
    + rewrite dlaplace_lim, dnorm_lim by (auto; apply inf_any; now right). now apply okd_log_0.
  - rewrite dlaplace_lim by (apply sig_any; auto). apply dnorm_spec0; auto.
Qed.
Lemma dl_y_mono x y mu sigma : bfin mu -> bpos sigma -> nn x -> nn y ->
  (ev mu <= ev x /\ ev x <= ev y \/ ev y <= ev x /\ ev x <= ev mu) -> ev (dl_y x mu sigma) <= ev (dl_y y mu sigma).
Proof.
  intros Fm P Nx Ny H. unfold dl_y. pose proof (bsub_r_nn mu x Fm Nx) as N1. pose proof (bsub_r_nn mu y Fm Ny) as N2.
  destruct (abs_ev _ N1) as [A1 B1], (abs_ev _ N2) as [A2 B2]. apply bdiv_r; auto; try now apply in_dom. rewrite B1, B2.
  assert (Q : forall u v, nn u -> nn v -> ev u <= ev v -> ev (bsub u mu) <= ev (bsub v mu)) by (intros; apply bsub_r; auto; now apply in_dom).
  assert (Z : ev (bsub mu mu) = 0) by (rewrite (proj2 (sub_ff mu mu Fm Fm)), Rminus_diag_eq, rc_0; auto).
  pose proof (nn_fin _ Fm) as Nm. destruct H as [[H1 H2]|[H1 H2]].
  - pose proof (Q _ _ Nm Nx H1). pose proof (Q _ _ Nx Ny H2). rewrite !Rabs_pos_eq; lra.
  - pose proof (Q _ _ Nx Nm H2). pose proof (Q _ _ Ny Nx H1). rewrite !Rabs_left1; lra.
Qed.
Lemma pos_ge0 c : bpos c -> Bleb (bofZ 0) c = true.
Proof. intros [A B]. apply (le_Zl 0); [sm|]. split; [now apply nn_fin|]. rewrite ev_fin by auto. lra. Qed.
Lemma dlaplace_uni mu sigma lf : exp_all_ok F -> log_std F -> bfin mu -> bpos sigma ->
  b64_unimodal mu (fun x => dlaplace (N:=NB) x mu sigma lf).
Proof.
  intros E L Fm P. destruct (dl_c_low sigma L P) as [Nc Lc].
  apply (uni_ls F (fun lf x => dlaplace (N:=NB) x mu sigma lf) (fun x => bsub (dl_c sigma) (dl_y x mu sigma))); auto.
  - apply dlaplace_okd; auto. now apply pos_ge0.
  - intros x Fx. split; [now rewrite dlaplace_fin|]. destruct (dl_y_nn x mu sigma Fm P (nn_fin _ Fx)). now apply sub_low_nn.
  - intros x Hx. rewrite dlaplace_lim by now apply inf_any. now apply dnorm_lim.
  - intros x y Fx Fy L1 L2. apply nn_fin in Fx, Fy. destruct (dl_y_nn x mu sigma Fm P Fx), (dl_y_nn y mu sigma Fm P Fy). apply sub_low_mono; auto. apply dl_y_mono; auto.
  - intros x y Fx Fy L1 L2. apply nn_fin in Fx, Fy. destruct (dl_y_nn x mu sigma Fm P Fx), (dl_y_nn y mu sigma Fm P Fy). apply sub_low_mono; auto. apply dl_y_mono; auto.
Qed.

(** *** Cauchy *)
Lemma dcauchy_fin x mu sigma lf : bfin x -> bfin mu -> bpos sigma ->
  dcauchy (N:=NB) x mu sigma lf = log_if (N:=NB) (dcauchy_compute (N:=NB) (bdiv (bsub x mu) sigma) sigma) lf.
Proof.
  intros Fx Fm Ps. unfold dcauchy. rewrite cauchy_norm3. unfold norm_sanity3. rewrite (ls_sanity F), (nan_nn F x) by (auto; now apply nn_fin). cbn [negb andb].
  unfold any_inf3. rewrite !inf_fin by (auto; apply Ps). reflexivity.
Qed.
Lemma dcauchy_lim x mu sigma lf : x = pI \/ x = mI -> bfin mu -> bpos sigma -> dcauchy (N:=NB) x mu sigma lf = log_if (N:=NB) (bofZ 0) lf.
Proof.
  intros Hx Fm Ps. assert (Nx : nn x) by (destruct Hx; subst; reflexivity).
  unfold dcauchy. rewrite cauchy_norm3. unfold norm_sanity3. rewrite (ls_sanity F), (nan_nn F x) by auto. cbn [negb andb].
  assert (I : is_inf (N:=NB) x = true) by (destruct Hx; subst; reflexivity). unfold any_inf3. rewrite I. cbn [orb].
  unfold dcauchy_limit_vals, all_posinf2, all_neginf2.
  rewrite (posinf_fin F sigma), (posinf_fin F mu), (neginf_fin F mu) by (auto; apply Ps). rewrite !andb_false_r. reflexivity.
Qed.
(** the denominator *)
Lemma dc_den_ok sigma z : bpos sigma -> bfin (t_PI F) -> 1 <= B2R (t_PI F) -> nn z ->
  dom (B2R sigma) maxR (bmul (bmul sigma (t_PI F)) (badd (bofZ 1) (bmul z z))).
Proof.
  intros P Fp Hp Nz. pose proof maxR_pos as M. destruct (mul_ge_l (t_PI F) sigma Fp Hp P) as [N1 E1]. pose proof P as [Fs Ps].
  destruct (sq_ev z Nz) as [N2 _]. pose proof (sq_ge0 z Nz) as P2. destruct (bofZ_R 1 ltac:(sm)) as [B1 F1].
  assert (N3 : nn (badd (bofZ 1) (bmul z z))) by now apply badd_l_nn.
  assert (P3 : 1 <= ev (badd (bofZ 1) (bmul z z))).
  { destruct Z0 as [N0 E0]. pose proof (badd_l (bofZ 1) F1 (bofZ 0) (bmul z z) (in_dom _ N0) (in_dom _ N2)) as Q. cbv beta in Q. rewrite E0 in Q. specialize (Q P2).
    destruct (bofZ_R 0 ltac:(sm)) as [B0 F0]. rewrite (proj2 (add_ff _ _ F1 F0)), B1, B0, Rplus_0_r, (rc_Z 1) in Q by sm. exact Q. }
  revert N3 P3. generalize (badd (bofZ 1) (bmul z z)). intros w N3 P3. revert N1 E1. generalize (bmul sigma (t_PI F)). intros s N1 E1.
  destruct (nn_cases s N1) as [Fs1 | [-> | ->]]; [| |cbn [ev] in E1; lra].
  - rewrite ev_fin in E1 by auto. destruct (nn_cases w N3) as [F3 | [-> | ->]]; [| |cbn [ev] in P3; lra].
    + destruct (mul_ff s w Fs1 F3) as [N E]. split; auto. split; [|apply ev_bound]. rewrite E. rewrite <- (ev_fin _ Fs), <- (rc_ev _ Fs). apply rc_mono. rewrite ev_fin in * by auto. nra.
    + rewrite mull_inf by (split; auto; lra). split; [reflexivity|]. cbn [ev]. pose proof (fin_lt _ Fs). rewrite ev_fin in * by auto. lra.
  - assert (K : bmul (B754_infinity false) w = B754_infinity false).
    { destruct (nn_cases w N3) as [F3 | [-> | ->]]; [|reflexivity|cbn [ev] in P3; lra]. apply mulr_inf. split; auto. rewrite ev_fin in P3 by auto. lra. }
    rewrite K. split; [reflexivity|]. cbn [ev]. pose proof (fin_lt _ Fs). rewrite ev_fin in * by auto. lra.
Qed.
Lemma dc_den_mono sigma z w : bpos sigma -> bfin (t_PI F) -> 1 <= B2R (t_PI F) -> nn z -> nn w -> Rabs (ev z) <= Rabs (ev w) ->
  ev (bmul (bmul sigma (t_PI F)) (badd (bofZ 1) (bmul z z))) <= ev (bmul (bmul sigma (t_PI F)) (badd (bofZ 1) (bmul w w))).
Proof.
  intros P Fp Hp Nz Nw L. pose proof maxR_pos as M. pose proof (sq_mono z w Nz Nw L) as S.
  destruct (mul_ge_l (t_PI F) sigma Fp Hp P) as [N1 E1]. pose proof P as [Fs Ps].
  destruct (sq_ev z Nz) as [N2 _], (sq_ev w Nw) as [N2' _]. destruct (bofZ_R 1 ltac:(sm)) as [B1 F1].
  pose proof (badd_l (bofZ 1) F1 _ _ (in_dom _ N2) (in_dom _ N2') S) as Q. cbv beta in Q.
  pose proof (dc_den_ok sigma w P Fp Hp Nw) as [K1 K2]. pose proof (dc_den_ok sigma z P Fp Hp Nz) as [K3 K4].
  destruct (nn_cases _ N1) as [Fs1 | [E | E]].
  - apply bmul_l; auto; try (apply in_dom; now apply badd_l_nn). split; auto. rewrite ev_fin in E1 by auto. lra.
  - assert (T : ev (bmul (bmul sigma (t_PI F)) (badd (bofZ 1) (bmul w w))) = maxR).
    { rewrite E in *. pose proof (badd_l_nn _ (bmul w w) F1 N2') as N3. destruct (nn_cases _ N3) as [F3 | [E3 | E3]].
      - destruct (Rlt_le_dec 0 (B2R (badd (bofZ 1) (bmul w w)))) as [G|G]; [rewrite mulr_inf by (split; auto); reflexivity|].
        exfalso. pose proof (sq_ge0 w Nw) as P2. destruct Z0 as [N0 E0]. pose proof (badd_l (bofZ 1) F1 (bofZ 0) (bmul w w) (in_dom _ N0) (in_dom _ N2')) as Q2. cbv beta in Q2. rewrite E0 in Q2. specialize (Q2 P2).
        destruct (bofZ_R 0 ltac:(sm)) as [B0 F0]. rewrite (proj2 (add_ff _ _ F1 F0)), B1, B0, Rplus_0_r, (rc_Z 1), ev_fin in Q2 by (auto; sm). lra.
      - rewrite E3. reflexivity.
      - rewrite E3 in K2. cbn [ev bmul Bmult xorb] in K2. cbn in K2. lra. }
    rewrite T. apply ev_bound.
  - rewrite E in E1. cbn [ev] in E1. lra.
Qed.
Lemma dcauchy_val_ok sigma z : bpos sigma -> bfin (t_PI F) -> 1 <= B2R (t_PI F) -> nn z ->
  nn (dcauchy_compute (N:=NB) z sigma) /\ 0 <= ev (dcauchy_compute (N:=NB) z sigma).
Proof.
  intros P Fp Hp Nz. destruct (dc_den_ok sigma z P Fp Hp Nz) as [A [B _]]. pose proof P as [Fs Ps]. destruct (bofZ_R 1 ltac:(sm)) as [B1 F1].
  change (dcauchy_compute (N:=NB) z sigma) with (bdiv (bofZ 1) (bmul (bmul sigma (t_PI F)) (badd (bofZ 1) (bmul z z)))).
  split; [apply bdiv_l_nn; auto; lra|]. apply bdiv_pos_nonneg; auto; lra.
Qed.
Lemma dcauchy_okd mu sigma : log_std F -> bfin (t_PI F) -> 1 <= B2R (t_PI F) -> bfin mu -> bpos sigma ->
  forall lf x, nn x -> okd lf (dcauchy (N:=NB) x mu sigma lf).
Proof.
  intros L Fp Hp Fm P lf x Nx. destruct (nn_cases x Nx) as [Fx | [-> | ->]].
  - rewrite dcauchy_fin by auto. destruct (dcauchy_val_ok sigma (bdiv (bsub x mu) sigma) P Fp Hp) as [A B]; [now apply (z_mono mu sigma Fm P)|]. now apply okd_log.
  - rewrite dcauchy_lim by auto. now apply okd_log_0.
  - rewrite dcauchy_lim by auto. now apply okd_log_0.
Qed.
Lemma log_if_mono lf v w : log_std F -> nn v -> nn w -> 0 <= ev v -> ev v <= ev w -> ev (log_if (N:=NB) v lf) <= ev (log_if (N:=NB) w lf).
Proof. intros L Nv Nw P H. destruct lf; cbn [log_if]; auto. now apply log_mono. Qed.
Lemma dcauchy_uni mu sigma lf : log_std F -> bfin (t_PI F) -> 1 <= B2R (t_PI F) -> bfin mu -> bpos sigma ->
  b64_unimodal mu (fun x => dcauchy (N:=NB) x mu sigma lf).
Proof.
  intros L Fp Hp Fm P. destruct (z_mono mu sigma Fm P) as [Nz Mz].
  assert (K : forall z w, nn z -> nn w -> Rabs (ev z) <= Rabs (ev w) -> ev (dcauchy_compute (N:=NB) w sigma) <= ev (dcauchy_compute (N:=NB) z sigma)).
  { intros z w N1 N2 H. pose proof P as [Fs Ps]. apply (bdiv_l (bofZ 1) (B2R sigma)); auto; try (apply bpos_Z; lia).
    - now apply dc_den_ok. - now apply dc_den_ok. - now apply dc_den_mono. }
  apply (uni_fin (fun lf x => dcauchy (N:=NB) x mu sigma lf)); auto.
  - now apply dcauchy_okd.
  - intros x Hx. now apply dcauchy_lim.
  - intros x y Fx Fy L1 L2. rewrite !dcauchy_fin by auto. apply nn_fin in Fx, Fy. destruct (dcauchy_val_ok sigma _ P Fp Hp (Nz x Fx)), (dcauchy_val_ok sigma _ P Fp Hp (Nz y Fy)).
    apply log_if_mono; auto. apply K; auto. pose proof (abs_ge_z x y mu sigma Fm P Fx Fy L1 L2). rewrite !Rabs_left1; lra.
  - intros x y Fx Fy L1 L2. rewrite !dcauchy_fin by auto. apply nn_fin in Fx, Fy. destruct (dcauchy_val_ok sigma _ P Fp Hp (Nz x Fx)), (dcauchy_val_ok sigma _ P Fp Hp (Nz y Fy)).
    apply log_if_mono; auto. apply K; auto. pose proof (abs_le_z x y mu sigma Fm P Fx Fy L1 L2). rewrite !Rabs_pos_eq; lra.
Qed.
End D2.
