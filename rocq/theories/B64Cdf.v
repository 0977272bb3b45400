(** Distribution functions evaluated in binary64: values in [0,1], no NaN, non-decreasing. *)
From Coq Require Import ZArith QArith Reals Bool Lra Lia.
From Verif Require Import Num Sanity Prob B64 B64R B64Ord SpecB64.
From Flocq Require Import Core IEEE754.BinarySingleNaN.
Local Open Scope R_scope.

Lemma nn_neq x : nn x <-> x <> B754_nan.
Proof. unfold nn. destruct x; cbn; split; intros; try congruence; discriminate. Qed.
Lemma ev_Z k : (Z.abs k <= 2 ^ 53)%Z -> nn (bofZ k) /\ ev (bofZ k) = IZR k.
Proof. intros H. destruct (bofZ_R k H) as [A B]. split; [now apply nn_fin|]. now rewrite ev_fin. Qed.
Lemma le_Zl k x : (Z.abs k <= 2 ^ 53)%Z -> (Bleb (bofZ k) x = true <-> nn x /\ IZR k <= ev x).
Proof. intros H. destruct (ev_Z k H) as [A B]. rewrite leb_ev, B. tauto. Qed.
Lemma le_Zr k x : (Z.abs k <= 2 ^ 53)%Z -> (Bleb x (bofZ k) = true <-> nn x /\ ev x <= IZR k).
Proof. intros H. destruct (ev_Z k H) as [A B]. rewrite leb_ev, B. tauto. Qed.
Ltac sm := cbn; lia.
Lemma rc_half : rc (/ 2) = / 2.
Proof.
  pose proof (rnd_dyadic 1 (-1) ltac:(cbn; lia) ltac:(lia)) as E.
  assert (Q : bpow radix2 (-1) = / 2) by (cbn; lra). rewrite Q in E. rewrite Rmult_1_l in E.
  pose proof maxR_1. rewrite rc_in; rewrite E; auto. rewrite Rabs_pos_eq; lra.
Qed.
Lemma half_R : bfin (blit (1#2)) /\ B2R (blit (1#2)) = / 2.
Proof.
  unfold blit. cbn [Qnum Qden]. destruct (bofZ_R 1 ltac:(sm)) as [A B], (bofZ_R 2 ltac:(sm)) as [A2 B2].
  destruct (div_ff (bofZ 1) (bofZ 2) B B2 ltac:(rewrite A2; lra)) as [N E]. rewrite A, A2 in E.
  replace (1 / 2) with (/ 2) in E by lra. rewrite rc_half in E.
  assert (F : bfin (bdiv (bofZ 1) (bofZ 2))) by (apply ev_lt_fin; auto; rewrite E; pose proof maxR_1; lra).
  split; [exact F|]. rewrite <- ev_fin; auto.
Qed.
(** the spec in terms of [ev] *)
Definition inc01 (G : b64 -> b64) : Prop :=
  (forall x, nn x -> nn (G x) /\ 0 <= ev (G x) <= 1) /\
  (forall x y, nn x -> nn y -> ev x <= ev y -> ev (G x) <= ev (G y)).
Lemma inc01_cdf G : inc01 G -> b64_cdf G.
Proof.
  intros [A B]. split.
  - intros x N. apply nn_neq in N. destruct (A x N) as [N' R']. split; [apply (le_Zl 0)|apply (le_Zr 1)]; try sm; split; auto; lra.
  - intros x y L. apply leb_ev in L. destruct L as (Nx & Ny & L). apply leb_ev. split; [now apply A|]. split; [now apply A|]. auto.
Qed.
(** a function of the finite numbers, completed by 0 and 1 *)
Lemma inc01_cap (G : b64 -> b64) :
  (forall x, bfin x -> nn (G x) /\ 0 <= ev (G x) <= 1) ->
  (forall x y, bfin x -> bfin y -> B2R x <= B2R y -> ev (G x) <= ev (G y)) ->
  G pI = bofZ 1 -> G mI = bofZ 0 -> inc01 G.
Proof.
  intros A B P M. pose proof maxR_pos as X. destruct (ev_Z 0 ltac:(sm)) as [Z0 E0], (ev_Z 1 ltac:(sm)) as [Z1 E1].
  assert (A' : forall x, nn x -> nn (G x) /\ 0 <= ev (G x) <= 1).
  { intros x N. destruct (nn_cases x N) as [F | [-> | ->]]; auto; fold pI mI; rewrite ?P, ?M, ?E0, ?E1; split; auto; lra. }
  split; auto. intros x y Nx Ny L.
  destruct (A' x Nx) as [_ Rx], (A' y Ny) as [_ Ry].
  destruct (nn_cases x Nx) as [F | [-> | ->]], (nn_cases y Ny) as [F' | [-> | ->]]; fold pI mI in *; rewrite ?P, ?M, ?E0, ?E1 in *; try lra.
  - apply B; auto. now rewrite <- !ev_fin.
  - pose proof (fin_lt _ F). unfold mI in L. rewrite ev_m in L. lra.
  - pose proof (fin_lt _ F'). unfold pI in L. rewrite ev_p in L. lra.
  - unfold pI, mI in L. rewrite ev_p, ev_m in L. lra.
Qed.
Lemma in_dom x : nn x -> dom (- maxR) maxR x.
Proof. intros N. split; auto. apply ev_bound. Qed.
Lemma fin_of x a b : nn x -> a <= ev x <= b -> - maxR < a -> b < maxR -> bfin x /\ a <= B2R x <= b.
Proof. intros N H A B. assert (F : bfin x) by (apply ev_lt_fin; auto; lra). split; auto. now rewrite <- ev_fin. Qed.
Lemma rc_range a b r : (Z.abs a <= 2 ^ 53)%Z -> (Z.abs b <= 2 ^ 53)%Z -> IZR a <= r <= IZR b -> IZR a <= rc r <= IZR b.
Proof. intros Ha Hb [L U]. rewrite <- (rc_Z a Ha), <- (rc_Z b Hb). split; now apply rc_mono. Qed.

(** half of one plus a number of [-1,1] *)
Lemma half_one_plus e : nn e -> -1 <= ev e <= 1 ->
  nn (bmul (blit (1#2)) (badd (bofZ 1) e)) /\ ev (bmul (blit (1#2)) (badd (bofZ 1) e)) = rc (/ 2 * rc (1 + ev e)) /\ 0 <= ev (bmul (blit (1#2)) (badd (bofZ 1) e)) <= 1.
Proof.
  intros N H. pose proof maxR_1 as M. destruct half_R as [Hf Hr]. destruct (bofZ_R 1 ltac:(sm)) as [A B].
  destruct (fin_of e (-1) 1 N H ltac:(lra) ltac:(lra)) as [F H'].
  destruct (add_ff (bofZ 1) e B F) as [N1 E1]. rewrite A in E1.
  assert (R1 : 0 <= ev (badd (bofZ 1) e) <= 2) by (rewrite E1; apply (rc_range 0 2); try sm; lra).
  destruct (fin_of _ 0 2 N1 R1 ltac:(lra) ltac:(lra)) as [F1 R1'].
  destruct (mul_ff (blit (1#2)) (badd (bofZ 1) e) Hf F1) as [N2 E2]. rewrite Hr in E2. rewrite E2.
  split; auto. split.
  - rewrite <- (ev_fin _ F1), E1, <- (ev_fin e F). reflexivity.
  - apply (rc_range 0 1); try sm. lra.
Qed.

Section CDF.
Variable F : TF.
Notation NB := (B64_Num F).
Local Notation mono f := (forall x y, nn x -> nn y -> ev x <= ev y -> ev (f x) <= ev (f y)).

Lemma nan_nn x : nn x -> Num.is_nan (Num:=NB) x = false. Proof. auto. Qed.
Lemma inf_fin x : bfin x -> is_inf (N:=NB) x = false. Proof. destruct x; cbn; auto; discriminate. Qed.
Lemma posinf_fin x : bfin x -> is_posinf (Num:=NB) x = false. Proof. destruct x; cbn; auto; discriminate. Qed.
Lemma neginf_fin x : bfin x -> is_neginf (Num:=NB) x = false. Proof. destruct x; cbn; auto; discriminate. Qed.
Lemma pos_bpos c : b64_pos c -> bpos c.
Proof.
  intros [A B]. destruct (bofZ_R 0 ltac:(sm)) as [Z0 Zf]. assert (N : nn c) by (destruct c; try reflexivity; discriminate B).
  apply (ltb_ev _ _ (nn_fin _ Zf) N) in A. rewrite (ev_fin _ Zf), Z0 in A.
  apply (ltb_ev c plus_inf N eq_refl) in B. unfold plus_inf in B. rewrite ev_p in B. pose proof maxR_pos.
  assert (bfin c) by (apply ev_lt_fin; auto; lra). split; auto. now rewrite <- ev_fin.
Qed.
Lemma lt0_f c : bfin c -> 0 <= B2R c -> Bltb c (bofZ 0) = false.
Proof. intros Fc P. destruct (bofZ_R 0 ltac:(sm)) as [Z0 Zf]. apply bltb_R_f; [auto|auto|lra]. Qed.
Lemma eq0_f c : bpos c -> Beqb c (bofZ 0) = false.
Proof. intros [Fc P]. destruct (bofZ_R 0 ltac:(sm)) as [Z0 Zf]. apply beqb_R_f; [auto|auto|lra]. Qed.
(** location-scale checks *)
Lemma ls_sanity mu sigma : bfin mu -> bpos sigma -> norm_sanity2 (N:=NB) mu sigma = true.
Proof.
  intros Fm [Fs Ps]. unfold norm_sanity2, any_nan2. rewrite (nan_nn mu (nn_fin _ Fm)), (nan_nn sigma (nn_fin _ Fs)). cbn [orb].
  change (ltb sigma (ofZ 0)) with (Bltb sigma (bofZ 0)). rewrite lt0_f; auto. lra.
Qed.
Lemma z_mono mu sigma : bfin mu -> bpos sigma ->
  (forall x, nn x -> nn (bdiv (bsub x mu) sigma)) /\ mono (fun x => bdiv (bsub x mu) sigma).
Proof.
  intros Fm Ps. split.
  - intros x N. apply bdiv_r_nn; auto. now apply bsub_r_nn.
  - intros x y Nx Ny L. apply bdiv_r; auto; try (apply in_dom; now apply bsub_r_nn).
    apply bsub_r; auto; now apply in_dom.
Qed.
Lemma dot_incr f a b : b64_incr minus_inf plus_inf (bofZ a) (bofZ b) f -> (Z.abs a <= 2 ^ 53)%Z -> (Z.abs b <= 2 ^ 53)%Z ->
  (forall x, nn x -> nn (f x) /\ IZR a <= ev (f x) <= IZR b) /\ mono f.
Proof.
  intros [A B] Ha Hb.
  assert (L : forall x, nn x -> Bleb minus_inf x = true /\ Bleb x plus_inf = true).
  { intros x N. pose proof (ev_bound x). split; apply leb_ev; repeat split; auto; unfold minus_inf, plus_inf; rewrite ?ev_p, ?ev_m; lra. }
  split.
  - intros x N. destruct (A x) as [U V]; try apply L; auto. apply (le_Zl a _ Ha) in U. apply (le_Zr b _ Hb) in V. tauto.
  - intros x y Nx Ny H. assert (X : Bleb (f x) (f y) = true).
    { apply B; try apply L; auto. apply leb_ev. auto. }
    apply leb_ev in X. tauto.
Qed.

(** *** normal *)
Lemma pnorm_fin x mu sigma : bfin x -> bfin mu -> bpos sigma ->
  pnorm (N:=NB) x mu sigma false = bmul (blit (1#2)) (badd (bofZ 1) (t_erf F (bdiv (bdiv (bsub x mu) sigma) (t_SQRT_2 F)))).
Proof.
  intros Fx Fm Ps. unfold pnorm, norm_sanity3. rewrite ls_sanity, (nan_nn x) by (auto; now apply nn_fin). cbn [negb andb].
  unfold any_inf3. rewrite !inf_fin by (auto; apply Ps). cbn [orb].
  change (eqb sigma (ofZ 0)) with (Beqb sigma (bofZ 0)). rewrite eq0_f by auto. reflexivity.
Qed.
Lemma pnorm_pI mu sigma : bfin mu -> bpos sigma -> pnorm (N:=NB) pI mu sigma false = bofZ 1.
Proof.
  intros Fm Ps. unfold pnorm, norm_sanity3. rewrite ls_sanity by auto. cbn [negb andb Num.is_nan B64_Num bisnan pI].
  unfold any_inf3, pnorm_limit_vals, all_posinf2, all_neginf2.
  change (eqb sigma (ofZ 0)) with (Beqb sigma (bofZ 0)). rewrite eq0_f by auto. rewrite (posinf_fin sigma), (posinf_fin mu), (neginf_fin mu) by (auto; apply Ps).
  reflexivity.
Qed.
Lemma pnorm_mI mu sigma : bfin mu -> bpos sigma -> pnorm (N:=NB) mI mu sigma false = bofZ 0.
Proof.
  intros Fm Ps. unfold pnorm, norm_sanity3. rewrite ls_sanity by auto. cbn [negb andb Num.is_nan B64_Num bisnan mI].
  unfold any_inf3, pnorm_limit_vals, all_posinf2, all_neginf2.
  change (eqb sigma (ofZ 0)) with (Beqb sigma (bofZ 0)). rewrite eq0_f by auto. rewrite (posinf_fin sigma), (posinf_fin mu), (neginf_fin mu) by (auto; apply Ps).
  reflexivity.
Qed.
Lemma pnorm_inc mu sigma : sym_fun (t_erf F) -> b64_pos (t_SQRT_2 F) -> bfin mu -> bpos sigma ->
  inc01 (fun x => pnorm (N:=NB) x mu sigma false).
Proof.
  intros He Hs Fm Ps. apply pos_bpos in Hs. destruct (dot_incr _ _ _ He ltac:(sm) ltac:(sm)) as [Re Me].
  destruct (z_mono mu sigma Fm Ps) as [Nz Mz].
  assert (Nw : forall x, nn x -> nn (bdiv (bdiv (bsub x mu) sigma) (t_SQRT_2 F))) by (intros; apply bdiv_r_nn; auto).
  apply inc01_cap.
  - intros x Fx. rewrite pnorm_fin by auto. pose proof (Re _ (Nw x (nn_fin _ Fx))) as [N1 R1].
    destruct (half_one_plus _ N1 R1) as (A & _ & B). auto.
  - intros x y Fx Fy L. rewrite !pnorm_fin by auto.
    pose proof (Re _ (Nw x (nn_fin _ Fx))) as [N1 R1]. pose proof (Re _ (Nw y (nn_fin _ Fy))) as [N2 R2].
    destruct (half_one_plus _ N1 R1) as (_ & E1 & _), (half_one_plus _ N2 R2) as (_ & E2 & _). rewrite E1, E2.
    apply rc_mono. apply Rmult_le_compat_l; [lra|]. apply rc_mono. apply Rplus_le_compat_l.
    apply Me; auto using nn_fin. apply bdiv_r; auto; try (apply in_dom, Nz, nn_fin; auto).
    apply Mz; auto using nn_fin. now rewrite !ev_fin.
  - now apply pnorm_pI.
  - now apply pnorm_mI.
Qed.
End CDF.
