(** Densities evaluated in binary64, first part: location-scale families, exponential, uniform,
    log-normal. *)
From Coq Require Import ZArith QArith Reals Bool Lra Lia.
From Verif Require Import Num Sanity Prob Dens B64 B64R B64Ord SpecB64 B64Cdf SpecB64D B64Mag.
From Flocq Require Import Core IEEE754.BinarySingleNaN.
Local Open Scope R_scope.

Lemma ev_le_all x : nn x -> Bleb minus_inf x = true /\ Bleb x plus_inf = true.
Proof. intros N. pose proof (ev_bound x). split; apply leb_ev; repeat split; auto; unfold minus_inf, plus_inf; rewrite ?ev_p, ?ev_m; lra. Qed.
Lemma ev_mI_inv x : nn x -> ev x <= - maxR -> x = mI.
Proof.
  intros N H. pose proof maxR_pos. destruct (nn_cases x N) as [F | [-> | ->]]; auto.
  - pose proof (fin_lt _ F). lra.
  - cbn [ev] in H. lra.
Qed.
Lemma Z0 : nn (bofZ 0) /\ ev (bofZ 0) = 0. Proof. exact (ev_Z 0 ltac:(sm)). Qed.
Lemma bfin_Z k : (Z.abs k <= 2 ^ 53)%Z -> bfin (bofZ k). Proof. intros H. exact (proj2 (bofZ_R k H)). Qed.
Lemma bpos_Z k : (0 < k <= 2 ^ 53)%Z -> bpos (bofZ k).
Proof. intros H. destruct (bofZ_R k ltac:(lia)) as [A B]. split; auto. rewrite A. apply IZR_lt. lia. Qed.
Lemma bpos_pos c : bpos c -> b64_pos c.
Proof.
  intros [Fc P]. destruct Z0 as [N0 E0]. pose proof (fin_lt c Fc). split; apply ltb_ev; auto using nn_fin.
  - rewrite E0, ev_fin; auto.
  - unfold plus_inf. rewrite ev_p. lra.
Qed.
(** a nonnegative parameter is zero, positive or infinite *)
Lemma ge0_cases c : Bleb (bofZ 0) c = true -> bfin c /\ B2R c = 0 \/ bpos c \/ c = pI.
Proof.
  intros H. apply (le_Zl 0) in H; [|sm]. destruct H as [N H]. destruct (nn_cases c N) as [F | [-> | ->]]; auto.
  - rewrite ev_fin in H by auto. destruct (Req_dec (B2R c) 0) as [E|E]; [now left|right; left]. split; auto. lra.
  - pose proof maxR_pos. cbn [ev] in H. lra.
Qed.

Section D.
Variable F : TF.
Notation NB := (B64_Num F).

(** ** the functions of the backend in terms of [ev] *)
Lemma exp_nn x : exp_all_ok F -> nn x -> nn (t_exp F x) /\ 0 <= ev (t_exp F x).
Proof.
  intros [A _] N. destruct (ev_le_all x N) as [U V]. destruct (A x U V) as [P _]. apply (le_Zl 0) in P; [|sm]. exact P.
Qed.
Lemma exp_mono x y : exp_all_ok F -> nn x -> nn y -> ev x <= ev y -> ev (t_exp F x) <= ev (t_exp F y).
Proof.
  intros [_ B] Nx Ny L. destruct (ev_le_all x Nx) as [U _], (ev_le_all y Ny) as [_ V].
  assert (Q : Bleb (t_exp F x) (t_exp F y) = true) by (apply B; auto; apply leb_ev; auto). apply leb_ev in Q. tauto.
Qed.
Lemma log_nn x : log_std F -> nn x -> 0 <= ev x -> nn (t_log F x).
Proof.
  intros [[A _] _] N P. destruct (ev_le_all x N) as [_ V]. destruct (A x) as [U _]; auto; [now apply (le_Zl 0); [sm|]|]. apply leb_ev in U. tauto.
Qed.
Lemma log_mono x y : log_std F -> nn x -> nn y -> 0 <= ev x -> ev x <= ev y -> ev (t_log F x) <= ev (t_log F y).
Proof.
  intros [[_ B] _] Nx Ny P L. destruct (ev_le_all y Ny) as [_ V].
  assert (Q : Bleb (t_log F x) (t_log F y) = true) by (apply B; auto; [now apply (le_Zl 0); [sm|]|now apply leb_ev]). apply leb_ev in Q. tauto.
Qed.
Lemma log_bmg x : log_std F -> bpos x -> bmg 10 (t_log F x) /\ -1000 <= ev (t_log F x) <= 1000.
Proof.
  intros (_ & _ & _ & B) P. destruct (B x (bpos_pos x P)) as [U V]. apply (le_Zl (-1000)) in U; [|sm]. apply (le_Zr 1000) in V; [|sm].
  destruct U as [N U], V as [_ V]. split; [|lra]. apply (bmg_sym 10 _ 1000); auto; try sm; try (cbn; lra).
Qed.
Lemma log_ge x : log_std F -> nn x -> 0 < ev x -> nn (t_log F x) /\ -1000 <= ev (t_log F x).
Proof.
  intros L N P. destruct (nn_cases x N) as [Fx | [-> | ->]].
  - rewrite ev_fin in P by auto. destruct (log_bmg x L (conj Fx P)) as [M R]. split; [now apply bmg_nn in M|lra].
  - destruct L as (_ & _ & E & _). change (B754_infinity false) with plus_inf. rewrite E. split; [reflexivity|]. unfold plus_inf. rewrite ev_p. pose proof (maxR_1).
    pose proof (bpow_lt radix2 10 1024 ltac:(lia)) as Q. fold maxR in Q. cbn in Q. lra.
  - pose proof maxR_pos. cbn [ev] in P. lra.
Qed.
Lemma log_zero x : log_std F -> bfin x -> B2R x = 0 -> t_log F x = mI.
Proof.
  intros L Fx E. pose proof (log_nn x L (nn_fin _ Fx) ltac:(rewrite ev_fin by auto; lra)) as N. apply ev_mI_inv; auto.
  destruct Z0 as [N0 E0]. pose proof (log_mono x (bofZ 0) L (nn_fin _ Fx) N0) as M. rewrite E0, ev_fin, E in M by auto.
  destruct L as (_ & Z & _). rewrite Z in M. unfold minus_inf in M. rewrite ev_m in M. apply M; lra.
Qed.
Lemma log_inf : log_std F -> t_log F pI = pI. Proof. intros (_ & _ & E & _). exact E. Qed.
Lemma log_0 : log_std F -> t_log F (bofZ 0) = mI. Proof. intros (_ & E & _). exact E. Qed.

(** what is to be shown of a value *)
Definition okd (lf : bool) (v : b64) : Prop := nn v /\ (lf = false -> 0 <= ev v).
Lemma okd_exp v lf : exp_all_ok F -> nn v -> okd lf (exp_if (N:=NB) v (negb lf)).
Proof.
  intros E N. destruct lf; cbn [negb exp_if]; [split; auto; discriminate|]. destruct (exp_nn v E N). split; auto.
Qed.
Lemma okd_log v lf : log_std F -> nn v -> 0 <= ev v -> okd lf (log_if (N:=NB) v lf).
Proof. intros L N P. destruct lf; cbn [log_if]; [split; [now apply log_nn|discriminate]|split; auto]. Qed.
Lemma okd_zero lf : okd lf (log_zero_if (N:=NB) lf).
Proof. destruct lf; split; try reflexivity; try discriminate; intros; cbn [log_zero_if]; change (ofZ 0) with (bofZ 0); destruct Z0 as [_ ->]; lra. Qed.
Lemma okd_one lf : okd lf (log_one_if (N:=NB) lf).
Proof.
  destruct (ev_Z 1 ltac:(sm)) as [N1 E1], Z0 as [N0 E0]. destruct lf; cbn [log_one_if]; split; auto; intros; [discriminate|].
  change (ofZ 1) with (bofZ 1). rewrite E1. lra.
Qed.
Lemma okd_log_0 lf : log_std F -> okd lf (log_if (N:=NB) (bofZ 0) lf).
Proof. intros L. destruct Z0 as [N0 E0]. apply okd_log; auto. rewrite E0. apply Rle_refl. Qed.
Lemma okd_log_inf lf : log_std F -> okd lf (log_if (N:=NB) pI lf).
Proof. intros L. apply okd_log; auto. reflexivity. unfold pI. rewrite ev_p. pose proof maxR_pos. lra. Qed.
Lemma okd_spec (d : bool -> b64 -> b64) : (forall lf x, nn x -> okd lf (d lf x)) -> b64_densities d.
Proof.
  intros H. split; intros x N; apply nn_neq in N.
  - destruct (H false x N) as [A B]. apply (le_Zl 0); [sm|]. auto.
  - apply nn_neq. now apply H.
Qed.

(** ** location-scale *)
Lemma eq0_t c : bfin c -> B2R c = 0 -> Beqb c (bofZ 0) = true.
Proof. intros Fc E. destruct (bofZ_R 0 ltac:(sm)) as [Z0' Zf]. apply beqb_R; auto; lra. Qed.
Lemma ls_sanity' mu sigma : bfin mu -> Bleb (bofZ 0) sigma = true -> norm_sanity2 (N:=NB) mu sigma = true.
Proof.
  intros Fm H. apply (le_Zl 0) in H; [|sm]. destruct H as [N H]. unfold norm_sanity2, any_nan2. rewrite (nan_nn F mu (nn_fin _ Fm)), (nan_nn F sigma N). cbn [orb].
  change (ltb sigma (ofZ 0)) with (Bltb sigma (bofZ 0)). destruct Z0 as [N0 E0]. rewrite (proj2 (ltb_ev_f sigma (bofZ 0) N N0)); [auto|lra].
Qed.
Lemma abs_le_z x y mu sigma : bfin mu -> bpos sigma -> nn x -> nn y -> ev mu <= ev x -> ev x <= ev y ->
  0 <= ev (bdiv (bsub x mu) sigma) <= ev (bdiv (bsub y mu) sigma).
Proof.
  intros Fm P Nx Ny L1 L2. destruct (z_mono mu sigma Fm P) as [Nz Mz]. split; [|now apply Mz].
  apply div_ge0; auto; [now apply bsub_r_nn|]. pose proof (bsub_r mu Fm mu x (in_dom _ (nn_fin _ Fm)) (in_dom _ Nx) L1) as Q. cbv beta in Q.
  rewrite (proj2 (sub_ff mu mu Fm Fm)), Rminus_diag_eq, rc_0 in Q; auto.
Qed.
Lemma abs_ge_z x y mu sigma : bfin mu -> bpos sigma -> nn x -> nn y -> ev x <= ev y -> ev y <= ev mu ->
  ev (bdiv (bsub x mu) sigma) <= ev (bdiv (bsub y mu) sigma) <= 0.
Proof.
  intros Fm P Nx Ny L1 L2. destruct (z_mono mu sigma Fm P) as [Nz Mz]. split; [now apply Mz|].
  apply div_le0; auto; [now apply bsub_r_nn|]. pose proof (bsub_r mu Fm y mu (in_dom _ Ny) (in_dom _ (nn_fin _ Fm)) L2) as Q. cbv beta in Q.
  rewrite (proj2 (sub_ff mu mu Fm Fm)), Rminus_diag_eq, rc_0 in Q; auto.
Qed.

(** *** normal *)
Lemma dnorm_fin x mu sigma lf : bfin x -> bfin mu -> bpos sigma ->
  dnorm (N:=NB) x mu sigma lf = exp_if (N:=NB) (dnorm_log_compute (N:=NB) (bdiv (bsub x mu) sigma) sigma) (negb lf).
Proof.
  intros Fx Fm Ps. unfold dnorm, norm_sanity3. rewrite (ls_sanity F), (nan_nn F x) by (auto; now apply nn_fin). cbn [negb andb].
  unfold any_inf3. rewrite !inf_fin by (auto; apply Ps). cbn [orb].
  change (eqb sigma (ofZ 0)) with (Beqb sigma (bofZ 0)). rewrite eq0_f by auto. reflexivity.
Qed.
Lemma dnorm_lim x mu sigma lf : x = pI \/ x = mI -> bfin mu -> bpos sigma -> dnorm (N:=NB) x mu sigma lf = log_if (N:=NB) (bofZ 0) lf.
Proof.
  intros Hx Fm Ps. assert (Nx : nn x) by (destruct Hx; subst; reflexivity).
  unfold dnorm, norm_sanity3. rewrite (ls_sanity F), (nan_nn F x) by auto. cbn [negb andb].
  assert (I : is_inf (N:=NB) x = true) by (destruct Hx; subst; reflexivity). unfold any_inf3. rewrite I. cbn [orb].
  unfold dnorm_limit_vals, all_posinf2, all_neginf2. change (eqb sigma (ofZ 0)) with (Beqb sigma (bofZ 0)). rewrite eq0_f by auto.
  rewrite (posinf_fin F sigma), (posinf_fin F mu), (neginf_fin F mu) by (auto; apply Ps). rewrite !andb_false_r. reflexivity.
Qed.
Lemma dnorm_spec0 x mu sigma lf : log_std F -> nn x -> bfin mu -> bfin sigma /\ B2R sigma = 0 \/ sigma = pI -> okd lf (dnorm (N:=NB) x mu sigma lf).
Proof.
  intros L Nx Fm Hs. unfold dnorm, norm_sanity3.
  assert (Z : Bleb (bofZ 0) sigma = true).
  { apply (le_Zl 0); [sm|]. destruct Hs as [[A B]| ->]; [split; [now apply nn_fin|rewrite ev_fin by auto; lra]|split; [reflexivity|cbn [ev pI]; pose proof maxR_pos; lra]]. }
  rewrite ls_sanity', (nan_nn F x) by auto. cbn [negb andb].
  assert (C : any_inf3 (N:=NB) x mu sigma || eqb (Num:=NB) sigma (ofZ (Num:=NB) 0) = true).
  { unfold any_inf3. destruct Hs as [[A B]| ->]; [change (eqb sigma (ofZ 0)) with (Beqb sigma (bofZ 0)); rewrite eq0_t by auto|]; rewrite ?orb_true_r; reflexivity || (cbn; now rewrite ?orb_true_r). }
  rewrite C. unfold dnorm_limit_vals, all_posinf2, all_neginf2. rewrite (posinf_fin F mu), (neginf_fin F mu), !andb_false_r by auto. cbn [orb].
  destruct (Num.is_posinf (Num:=NB) sigma); [now apply okd_log_0|].
  destruct (eqb (Num:=NB) sigma (ofZ (Num:=NB) 0) && eqb (Num:=NB) x mu); [now apply okd_log_inf|now apply okd_log_0].
Qed.
(** the part of the log-density that does not depend on x *)
Definition dn_c (sigma : b64) : b64 := bsub (bmul (Bopp (blit (1#2))) (t_LOG_2PI F)) (t_log F sigma).
Lemma small_mag c : small_const c -> bmg 1 c.
Proof.
  intros [A B]. apply (le_Zl (-2)) in A; [|sm]. apply (le_Zr 2) in B; [|sm]. apply (bmg_sym 1 _ 2); try sm; try (cbn; lra); try tauto.
Qed.
Lemma dn_c_mag sigma : log_std F -> small_const (t_LOG_2PI F) -> bpos sigma -> bmg 11 (dn_c sigma).
Proof.
  intros L S P. unfold dn_c. apply (bmg_sub 10); try lia.
  - apply bmg_le with 0%Z; [lia|]. apply (bmg_mul (-1) 1); [lia|apply bmg_opp, bmg_half|now apply small_mag].
  - now apply log_bmg.
Qed.
Lemma dnorm_compute_val z sigma : dnorm_log_compute (N:=NB) z sigma = bsub (dn_c sigma) (bdiv (bmul z z) (bofZ 2)). Proof. reflexivity. Qed.
Lemma sq_half_nn z : nn z -> nn (bdiv (bmul z z) (bofZ 2)).
Proof. intros N. apply bdiv_r_nn; [apply bpos_Z; lia|]. now apply sq_ev. Qed.
Lemma dnorm_okd mu sigma : exp_all_ok F -> log_std F -> small_const (t_LOG_2PI F) -> bfin mu -> Bleb (bofZ 0) sigma = true ->
  forall lf x, nn x -> okd lf (dnorm (N:=NB) x mu sigma lf).
Proof.
  intros E L S Fm Hs lf x Nx. destruct (ge0_cases _ Hs) as [C | [P | C]]; [now apply dnorm_spec0; auto| |now apply dnorm_spec0; auto].
  destruct (nn_cases x Nx) as [Fx | [-> | ->]].
  - rewrite dnorm_fin by auto. apply okd_exp; auto. rewrite dnorm_compute_val.
    apply bsub_l_nn; [apply (bmg_fin 11); now apply dn_c_mag|]. apply sq_half_nn. now apply (z_mono mu sigma Fm P).
  - rewrite dnorm_lim by auto. now apply okd_log_0.
  - rewrite dnorm_lim by auto. now apply okd_log_0.
Qed.
(** the log form at any argument, and its monotonicity in |z| *)
Lemma dn_mono c z w : bfin c -> nn z -> nn w -> Rabs (ev z) <= Rabs (ev w) ->
  ev (bsub c (bdiv (bmul w w) (bofZ 2))) <= ev (bsub c (bdiv (bmul z z) (bofZ 2))).
Proof.
  intros Fc Nz Nw L. apply bsub_l; auto; try (apply in_dom; now apply sq_half_nn).
  apply bdiv_r; [apply bpos_Z; lia|apply in_dom; now apply sq_ev|apply in_dom; now apply sq_ev|]. now apply sq_mono.
Qed.
(** unimodality of a function of the form exp_if (g x) on the finite numbers, minimal at the infinities *)
Lemma uni_spec (m : b64) (d : b64 -> b64) : nn m ->
  (forall x, nn x -> nn (d x)) ->
  (forall x y, nn x -> nn y -> ev x <= ev y -> ev y <= ev m -> ev (d x) <= ev (d y)) ->
  (forall x y, nn x -> nn y -> ev m <= ev x -> ev x <= ev y -> ev (d y) <= ev (d x)) -> b64_unimodal m d.
Proof.
  intros Nm N A B. split; intros x y H1 H2; apply leb_ev in H1, H2; apply leb_ev; intuition.
Qed.
Lemma lim_min lf v : log_std F -> okd lf v -> nn v -> ev (log_if (N:=NB) (bofZ 0) lf) <= ev v.
Proof.
  intros L [N P] _. destruct lf; cbn [log_if].
  - change (ev (t_log F (bofZ 0)) <= ev v). rewrite log_0 by auto. unfold mI. rewrite ev_m. apply ev_bound.
  - destruct Z0 as [_ ->]. auto.
Qed.
Lemma exp_if_mono lf v w : exp_all_ok F -> nn v -> nn w -> ev v <= ev w -> ev (exp_if (N:=NB) v (negb lf)) <= ev (exp_if (N:=NB) w (negb lf)).
Proof. intros E Nv Nw H. destruct lf; cbn [exp_if negb]; auto. now apply exp_mono. Qed.
Lemma uni_ls (d : bool -> b64 -> b64) (g : b64 -> b64) mu lf : log_std F -> exp_all_ok F -> bfin mu ->
  (forall x, nn x -> okd lf (d lf x)) ->
  (forall x, bfin x -> d lf x = exp_if (N:=NB) (g x) (negb lf) /\ nn (g x)) ->
  (forall x, x = pI \/ x = mI -> d lf x = log_if (N:=NB) (bofZ 0) lf) ->
  (forall x y, bfin x -> bfin y -> ev x <= ev y -> ev y <= ev mu -> ev (g x) <= ev (g y)) ->
  (forall x y, bfin x -> bfin y -> ev mu <= ev x -> ev x <= ev y -> ev (g y) <= ev (g x)) ->
  b64_unimodal mu (d lf).
Proof.
  intros L E Fm K V I A B. pose proof maxR_pos. pose proof (fin_lt mu Fm) as Bm.
  assert (M : forall x y, x = pI \/ x = mI -> nn y -> ev (d lf x) <= ev (d lf y)).
  { intros x y Hx Ny. rewrite (I x Hx). apply lim_min; auto. now apply K. }
  apply uni_spec; [now apply nn_fin|intros x N; now apply K| |]; intros x y Nx Ny L1 L2.
  - destruct (nn_cases x Nx) as [Fx | [-> | ->]]; [|apply M; auto; now left|apply M; auto; now right].
    destruct (nn_cases y Ny) as [Fy | [-> | ->]]; [|rewrite ev_p in *; lra|rewrite ev_m in *; pose proof (fin_lt x Fx); lra].
    rewrite (proj1 (V x Fx)), (proj1 (V y Fy)). apply exp_if_mono; auto; now apply V.
  - destruct (nn_cases y Ny) as [Fy | [-> | ->]]; [|apply M; auto; now left|apply M; auto; now right].
    destruct (nn_cases x Nx) as [Fx | [-> | ->]]; [|rewrite ev_p in *; pose proof (fin_lt y Fy); lra|rewrite ev_m in *; lra].
    rewrite (proj1 (V x Fx)), (proj1 (V y Fy)). apply exp_if_mono; auto; now apply V.
Qed.
Lemma dnorm_uni mu sigma lf : exp_all_ok F -> log_std F -> small_const (t_LOG_2PI F) -> bfin mu -> bpos sigma ->
  b64_unimodal mu (fun x => dnorm (N:=NB) x mu sigma lf).
Proof.
  intros E L S Fm P. pose proof (bmg_fin _ _ (dn_c_mag sigma L S P)) as Fc. destruct (z_mono mu sigma Fm P) as [Nz Mz].
  apply (uni_ls (fun lf x => dnorm (N:=NB) x mu sigma lf) (fun x => bsub (dn_c sigma) (bdiv (bmul (bdiv (bsub x mu) sigma) (bdiv (bsub x mu) sigma)) (bofZ 2)))); auto.
  - apply dnorm_okd; auto. apply (le_Zl 0); [sm|]. destruct P. split; [now apply nn_fin|]. rewrite ev_fin by auto. lra.
  - intros x Fx. split; [now rewrite dnorm_fin|]. apply bsub_l_nn; auto. apply sq_half_nn, Nz. now apply nn_fin.
  - intros x Hx. now apply dnorm_lim.
  - intros x y Fx Fy L1 L2. apply nn_fin in Fx, Fy. apply dn_mono; auto. pose proof (abs_ge_z x y mu sigma Fm P Fx Fy L1 L2). rewrite !Rabs_left1; lra.
  - intros x y Fx Fy L1 L2. apply nn_fin in Fx, Fy. apply dn_mono; auto. pose proof (abs_le_z x y mu sigma Fm P Fx Fy L1 L2). rewrite !Rabs_pos_eq; lra.
Qed.
End D.
