(** Accuracy of the distribution functions in binary64. *)
From Coq Require Import ZArith QArith Reals Bool Lra Lia.
From Verif Require Import RealElem RealAcc Erf GammaFn BetaFn NormR Spec SpecSF.
From Verif Require Import Num Sanity Prob B64 B64R B64Ord SpecB64 SpecAcc B64Cdf B64Cdf2 B64Cdf3 B64Acc.
From Flocq Require Import Core IEEE754.BinarySingleNaN.
Local Open Scope R_scope.

Lemma z_near x mu sigma : bfin x -> bfin mu -> bpos sigma -> Rabs (B2R x - B2R mu) <= huge -> Rabs ((B2R x - B2R mu) / B2R sigma) <= huge ->
  near (2 * ulp1) tiny (bdiv (bsub x mu) sigma) ((B2R x - B2R mu) / B2R sigma).
Proof.
  intros Fx Fm [Fs Ps] H1 H2. pose proof ulp1_val as U. pose proof huge_pos.
  pose proof (near_div ulp1 0 0 0 _ _ _ _ (near_sub x mu Fx Fm ltac:(lra)) (near_exact sigma Fs) ltac:(lra) ltac:(lra) H2) as N.
  eapply near_le; [apply N; try lra|lra|lra].
Qed.
Lemma half_within : within 0 (blit (1#2)) (/ 2).
Proof. destruct half_R as [A B]. rewrite <- B. now apply within_exact. Qed.
Lemma blit_half_near : near 0 0 (blit (1#2)) (/ 2).
Proof. destruct half_R as [A B]. rewrite <- B. now apply near_exact. Qed.
(** half of one plus an approximate number of [-1,1] *)
Lemma half_one_plus_acc d v a : within d v a -> Rabs a <= 1 -> d <= / 2 -> within (d / 2 + 4 * ulp1) (bmul (blit (1#2)) (badd (bofZ 1) v)) (1 / 2 * (1 + a)).
Proof.
  intros W A D. pose proof ulp1_val as U. pose proof huge_1. pose proof tiny_small. pose proof tiny_pos. destruct half_R as [Hf Hr]. apply Rabs_le_inv in A.
  assert (B : Rabs (1 + a) <= 2) by (apply Rabs_le; lra).
  pose proof (within_add 0 d _ _ 1 a 2 (within_Z 1 ltac:(sm)) W B ltac:(lra) ltac:(lra)) as W1.
  assert (B2 : Rabs (B2R (blit (1#2)) * (1 + a)) <= 1) by (rewrite Hr; apply Rabs_le; lra).
  assert (G : Rabs (B2R (blit (1#2))) = / 2) by (rewrite Hr; apply Rabs_pos_eq; lra).
  pose proof (within_mulc _ (blit (1#2)) _ _ 1 W1 Hf B2) as W2. rewrite G, Hr in W2.
  replace (1 / 2 * (1 + a)) with (/ 2 * (1 + a)) by lra. eapply within_le; [apply W2; lra|]. lra.
Qed.
Lemma abs_tri3 a b : Rabs (a - b) <= Rabs a + Rabs b.
Proof. unfold Rminus. eapply Rle_trans; [apply Rabs_triang|]. rewrite Rabs_Ropp. lra. Qed.
(** a library function of an approximate argument *)
Lemma lib_within e M k h c l (f : b64 -> b64) (g : R -> R) (D : R -> Prop) x a : computes e D f g -> near k h x a -> D (B2R x) -> 0 <= e <= / 200 -> 0 <= c -> 0 <= l ->
  (forall t s, Rabs t <= k -> Rabs s <= h -> Rabs (g (a * exp t + s) - g a) <= c * Rabs t + l * Rabs s) -> Rabs (g (B2R x)) <= M ->
  within (101 / 100 * e * M + tiny + (c * k + l * h)) (f x) (g a).
Proof.
  intros HF (Fx & t & s & T & S & E) Dx He Pc Pl HG HM. pose proof (near_within _ _ _ _ (HF x Fx Dx) ltac:(lra)) as W.
  apply (within_tri _ (c * k + l * h)) with (r' := g a) in W.
  - eapply within_le; [exact W|]. nra.
  - rewrite E. eapply Rle_trans; [apply HG; auto|]. nra.
Qed.

(** an absolute error that is small relative to the value *)
Lemma near_rel k h y r : near k h y r -> 0 <= k <= / 200 -> 8 * h <= ulp1 * Rabs r -> near (k + ulp1) 0 y r.
Proof.
  intros (Fy & t & s & T & S & E) K H. split; auto. pose proof (exp_2 t k T ltac:(lra)) as X. pose proof ulp1_val as U.
  destruct (Req_dec r 0) as [-> | N].
  - rewrite Rabs_R0 in H. exists t, 0. rewrite Rabs_R0. pose proof (Rabs_pos s). assert (s = 0) by (apply abs_le0; lra). subst s. repeat split; try lra.
  - apply Rabs_pos_lt in N. assert (D : Rabs (s / (r * exp t)) <= / 2 * bpow radix2 (-52)).
    { fold ulp1. unfold Rdiv. rewrite Rabs_mult, Rabs_inv, Rabs_mult, (Rabs_pos_eq (exp t)) by lra.
      apply (Rmult_le_reg_r (Rabs r * exp t)); [nra|]. rewrite Rmult_assoc, Rinv_l by nra. nra. }
    destruct (factor _ D) as (t' & T' & X'). exists (t + t'), 0. rewrite Rabs_R0. split; [apply abs_sum; auto|]. split; [lra|].
    rewrite E, exp_plus, <- X'. assert (r <> 0) by (intros ->; rewrite Rabs_R0 in N; lra). field. split; lra.
Qed.

Section A.
Variable F : TF.
Notation NB := (B64_Num F).
Variable e : R.
Hypothesis He : unit_ok e.
Lemma e_pos : 0 <= e <= / 200 /\ ulp1 <= e /\ tiny <= e / 1000000.
Proof. destruct He as [A B]. pose proof ulp1_val. pose proof tiny_small. lra. Qed.

Lemma pnorm_acc x mu sigma : const_acc e (t_SQRT_2 F) (R_sqrt.sqrt 2) -> erf_acc F e -> bfin x -> bfin mu -> bpos sigma ->
  Rabs (B2R x - B2R mu) <= huge -> Rabs ((B2R x - B2R mu) / B2R sigma) <= huge ->
  within (6 * e) (pnorm (N:=NB) x mu sigma false) (norm_cdf (B2R mu) (B2R sigma) (B2R x)).
Proof.
  intros C HF Fx Fm Ps H1 H2. rewrite pnorm_fin by auto. pose proof e_pos as (E1 & E2 & E3). pose proof tiny_pos. pose proof He as [_ Hb]. pose proof huge_1.
  pose proof (z_near x mu sigma Fx Fm Ps H1 H2) as Z.
  assert (Q : 1 <= R_sqrt.sqrt 2). { rewrite <- sqrt_1. apply sqrt_le_1; lra. }
  set (z := (B2R x - B2R mu) / B2R sigma) in *.
  assert (HQ : Rabs (z / R_sqrt.sqrt 2) <= huge).
  { unfold Rdiv. rewrite Rabs_mult, Rabs_inv, (Rabs_pos_eq (R_sqrt.sqrt 2)) by lra. assert (/ R_sqrt.sqrt 2 <= 1) by (rewrite <- Rinv_1; apply Rinv_le_contravar; lra).
    pose proof (Rabs_pos z). assert (0 < / R_sqrt.sqrt 2) by (apply Rinv_0_lt_compat; lra). nra. }
  assert (HH : 2 * tiny / Rabs (R_sqrt.sqrt 2) <= 2 * tiny).
  { rewrite (Rabs_pos_eq (R_sqrt.sqrt 2)) by lra. unfold Rdiv. assert (/ R_sqrt.sqrt 2 <= 1) by (rewrite <- Rinv_1; apply Rinv_le_contravar; lra). nra. }
  pose proof (near_div (2 * ulp1) tiny e (2 * tiny) _ _ _ _ Z C ltac:(lra) ltac:(lra) HQ HH ltac:(lra)) as N.
  pose proof (lib_within e 1 _ _ (3 / 5) (6 / 5) (t_erf F) erfR any _ _ HF N I E1 ltac:(lra) ltac:(lra)) as W.
  assert (W' : within (4 * e) (t_erf F (bdiv (bdiv (bsub x mu) sigma) (t_SQRT_2 F))) (erfR (z / R_sqrt.sqrt 2))).
  { eapply within_le; [apply W|lra].
    - intros. apply cond_erf.
    - pose proof (erfR_range (B2R (bdiv (bdiv (bsub x mu) sigma) (t_SQRT_2 F)))). apply Rabs_le. lra. }
  unfold norm_cdf. replace ((B2R x - B2R mu) / (R_sqrt.sqrt 2 * B2R sigma)) with (z / R_sqrt.sqrt 2) by (unfold z; field; destruct Ps; split; lra).
  eapply within_le; [apply (half_one_plus_acc _ _ _ W')|lra].
  - pose proof (erfR_range (z / R_sqrt.sqrt 2)). apply Rabs_le. lra.
  - lra.
Qed.

(** *** logistic *)
Lemma logis_tanh mu s x : s <> 0 -> logis_cdf mu s x = 1 / 2 * (1 + Rtrigo_def.tanh ((x - mu) / (2 * s))).
Proof.
  intros Hs. unfold logis_cdf, Rtrigo_def.tanh, Rtrigo_def.sinh, Rtrigo_def.cosh. set (y := (x - mu) / (2 * s)).
  replace ((x - mu) / s) with (y + y) by (unfold y; field; auto). rewrite Ropp_plus_distr, exp_plus, exp_Ropp. pose proof (exp_pos y). field. split; nra.
Qed.
Lemma tanh_abs x : Rabs (Rtrigo_def.tanh x) <= 1.
Proof.
  unfold Rtrigo_def.tanh, Rtrigo_def.sinh, Rtrigo_def.cosh. pose proof (exp_pos x). pose proof (exp_pos (- x)).
  set (c := (exp x + exp (- x)) / 2). assert (0 < c) by (unfold c; lra). set (a := (exp x - exp (- x)) / 2).
  assert (E : a / c * c = a) by (field; lra). assert (- c <= a <= c) by (unfold a, c; lra). apply Rabs_le. split; apply (Rmult_le_reg_r c); lra.
Qed.
Lemma plogis_fin x mu sigma : bfin x -> bfin mu -> bpos sigma ->
  plogis (N:=NB) x mu sigma false = bmul (blit (1#2)) (badd (bofZ 1) (t_tanh F (bdiv (bsub x mu) (bmul (bofZ 2) sigma)))).
Proof.
  intros Fx Fm Ps. unfold plogis, logis_sanity3. change (logis_sanity2 (N:=NB) mu sigma) with (norm_sanity2 (N:=NB) mu sigma).
  rewrite ls_sanity, (nan_nn F x) by (auto; now apply nn_fin). cbn [negb andb].
  unfold any_inf3. rewrite !inf_fin by (auto; apply Ps). cbn [orb].
  change (eqb sigma (ofZ 0)) with (Beqb sigma (bofZ 0)). rewrite eq0_f by auto. reflexivity.
Qed.
Lemma dbl_exact sigma : bfin sigma -> Rabs (2 * B2R sigma) <= huge -> finite (bmul (bofZ 2) sigma) /\ B2R (bmul (bofZ 2) sigma) = 2 * B2R sigma.
Proof.
  intros Fs H. destruct (bofZ_R 2 ltac:(sm)) as [A B]. pose proof huge_pos. assert (L : Rabs (rnd (B2R (bofZ 2) * B2R sigma)) < maxR) by (apply rnd_bound; rewrite A; lra).
  destruct (bmul_R (bofZ 2) sigma B Fs L) as [E G]. split; auto. rewrite E, A. apply rnd_fmt, fmt2, generic_format_B2R.
Qed.
Lemma plogis_acc x mu sigma : tanh_acc F e -> bfin x -> bfin mu -> bpos sigma -> B2R sigma <= huge / 2 ->
  Rabs (B2R x - B2R mu) <= huge -> Rabs ((B2R x - B2R mu) / B2R sigma) <= huge ->
  within (6 * e) (plogis (N:=NB) x mu sigma false) (logis_cdf (B2R mu) (B2R sigma) (B2R x)).
Proof.
  intros HF Fx Fm Ps Hs H1 H2. rewrite plogis_fin by auto. pose proof e_pos as (E1 & E2 & E3). pose proof tiny_pos. pose proof He as [_ Hb]. pose proof huge_1.
  destruct Ps as [Fs Ps]. destruct (dbl_exact sigma Fs) as [F2 V2]; [rewrite Rabs_pos_eq; lra|].
  assert (P2 : bpos (bmul (bofZ 2) sigma)) by (split; [auto|lra]).
  rewrite logis_tanh by lra. assert (HQ : Rabs ((B2R x - B2R mu) / (2 * B2R sigma)) <= huge).
  { replace ((B2R x - B2R mu) / (2 * B2R sigma)) with (/ 2 * ((B2R x - B2R mu) / B2R sigma)) by (field; lra). rewrite Rabs_mult, (Rabs_pos_eq (/ 2)) by lra.
    pose proof (Rabs_pos ((B2R x - B2R mu) / B2R sigma)). lra. }
  rewrite <- V2 in *. pose proof (z_near x mu _ Fx Fm P2 H1 HQ) as N.
  pose proof (lib_within e 1 _ _ (/ 2) 1 (t_tanh F) Rtrigo_def.tanh any _ _ HF N I E1 ltac:(lra) ltac:(lra)) as W.
  eapply within_le; [apply (half_one_plus_acc (3 * e))|]; try lra.
  - eapply within_le; [apply W|lra]; [|apply tanh_abs]. intros t s _ _. rewrite (Rmult_1_l (Rabs s)). apply cond_tanh.
  - apply tanh_abs.
Qed.

(** *** Cauchy *)
Lemma pcauchy_fin x mu sigma : bfin x -> bfin mu -> bpos sigma ->
  pcauchy (N:=NB) x mu sigma false = badd (blit (1#2)) (bdiv (t_atan F (bdiv (bsub x mu) sigma)) (t_PI F)).
Proof.
  intros Fx Fm Ps. unfold pcauchy, cauchy_sanity3. change (cauchy_sanity2 (N:=NB) mu sigma) with (norm_sanity2 (N:=NB) mu sigma).
  rewrite ls_sanity, (nan_nn F x) by (auto; now apply nn_fin). cbn [negb andb].
  unfold any_inf3. rewrite !inf_fin by (auto; apply Ps). reflexivity.
Qed.
Lemma PI_lo : 289 / 100 <= Rtrigo1.PI.
Proof. pose proof (PI_ineq 1%nat) as [A _]. revert A. unfold tg_alt, PI_tg. cbn. lra. Qed.
Lemma cauchy_tail x mu : atan_acc F e -> const_acc e (t_PI F) Rtrigo1.PI -> near (2 * ulp1) tiny x mu -> 
  within (9 * e) (badd (blit (1#2)) (bdiv (t_atan F x) (t_PI F))) (1 / 2 + 1 / Rtrigo1.PI * Ratan.atan mu).
Proof.
  intros HF C N. pose proof e_pos as (E1 & E2 & E3). pose proof tiny_pos. pose proof He as [_ Hb]. pose proof huge_1. pose proof PI_lo as P. pose proof PI_4 as P4.
  pose proof (lib_within e 2 _ _ (/ 2) 1 (t_atan F) Ratan.atan any _ _ HF N I E1 ltac:(lra) ltac:(lra)) as W.
  assert (AB : forall r, Rabs (Ratan.atan r) <= 2) by (intros r; pose proof (atan_bound r); apply Rabs_le; lra).
  assert (W1 : within (4 * e) (t_atan F x) (Ratan.atan mu)).
  { eapply within_le; [apply W; [|apply AB]|lra]. intros t s _ _. rewrite (Rmult_1_l (Rabs s)). apply cond_atan. }
  clear W. destruct W1 as [Fa Ha]. set (A := t_atan F x) in *.
  assert (Ipi : 0 < / Rtrigo1.PI <= / 2) by (split; [apply Rinv_0_lt_compat; lra|apply Rinv_le_contravar; lra]).
  assert (Ba : Rabs (B2R A) <= 3). { replace (B2R A) with (Ratan.atan mu + (B2R A - Ratan.atan mu)) by ring. eapply Rle_trans; [apply Rabs_triang|]. pose proof (AB mu). lra. }
  assert (Bq : Rabs (B2R A / Rtrigo1.PI) <= 3 / 2). { unfold Rdiv. rewrite Rabs_mult, (Rabs_pos_eq (/ _)) by lra. pose proof (Rabs_pos (B2R A)). nra. }
  pose proof (near_div 0 0 e 0 _ _ _ _ (near_exact A Fa) C ltac:(lra) ltac:(lra) ltac:(lra) ltac:(unfold Rdiv; lra) ltac:(lra)) as Nd.
  pose proof (near_within _ _ _ _ Nd ltac:(lra)) as W2.
  assert (Q : Rabs (B2R A / Rtrigo1.PI - Ratan.atan mu / Rtrigo1.PI) <= 2 * e).
  { replace (B2R A / Rtrigo1.PI - Ratan.atan mu / Rtrigo1.PI) with ((B2R A - Ratan.atan mu) * / Rtrigo1.PI) by (field; lra).
    rewrite Rabs_mult, (Rabs_pos_eq (/ _)) by lra. pose proof (Rabs_pos (B2R A - Ratan.atan mu)). nra. }
  pose proof (within_tri _ _ _ _ _ W2 Q) as W3.
  assert (Bm : Rabs (Ratan.atan mu / Rtrigo1.PI) <= / 2).
  { unfold Rdiv. rewrite Rabs_mult, (Rabs_pos_eq (/ _)) by lra. apply (Rmult_le_reg_r Rtrigo1.PI); [lra|]. rewrite Rmult_assoc, Rinv_l by lra.
    pose proof (atan_bound mu). rewrite Rmult_1_r. apply Rabs_le. lra. }
  assert (W4 : within (6 * e) (bdiv A (t_PI F)) (Ratan.atan mu / Rtrigo1.PI)).
  { eapply within_le; [exact W3|]. pose proof (Rabs_pos (B2R A / Rtrigo1.PI)). nra. }
  replace (1 / 2 + 1 / Rtrigo1.PI * Ratan.atan mu) with (/ 2 + Ratan.atan mu / Rtrigo1.PI) by (field; lra).
  assert (B2 : Rabs (/ 2 + Ratan.atan mu / Rtrigo1.PI) <= 1) by (apply Rabs_le; apply Rabs_le_inv in Bm; lra).
  eapply within_le; [apply (within_add 0 (6 * e) _ _ _ _ 1 half_within W4 B2); lra|]. lra.
Qed.
Lemma pcauchy_acc x mu sigma : atan_acc F e -> const_acc e (t_PI F) Rtrigo1.PI -> bfin x -> bfin mu -> bpos sigma ->
  Rabs (B2R x - B2R mu) <= huge -> Rabs ((B2R x - B2R mu) / B2R sigma) <= huge ->
  within (9 * e) (pcauchy (N:=NB) x mu sigma false) (cauchy_cdf (B2R mu) (B2R sigma) (B2R x)).
Proof.
  intros HF C Fx Fm Ps H1 H2. rewrite pcauchy_fin by auto. pose proof e_pos. eapply within_le; [apply (cauchy_tail _ _ HF C)|lra]. now apply z_near.
Qed.
End A.
