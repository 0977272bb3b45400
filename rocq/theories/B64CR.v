(** Correctly rounded functions.  [rdB r] is the double nearest to the real number r (an infinity
    beyond the range); the correctly rounded version of a monotone function is monotone.  The record
    [TFR] of the correctly rounded mathematical functions satisfies every order hypothesis that the
    binary64 theorems place on the functions of the backend. *)
From Coq Require Import ZArith QArith Reals Bool Lra Lia.
From Coquelicot Require Import Coquelicot.
From Verif Require Import Erf GammaFn BetaFn.
From Verif Require Import Num Witness WitnessSF Sanity Prob B64 B64R B64Ord SpecB64 B64Cdf B64Cdf2 B64Cdf3.
From Flocq Require Import Core IEEE754.BinarySingleNaN.
Local Open Scope R_scope.

Definition rdB (r : R) : b64 :=
  binary_normalize 53 1024 b64_prec_gt_0 b64_prec_lt_emax mode_NE (ZnearestE (scaled_mantissa radix2 fexp64 r)) (cexp radix2 fexp64 r) false.
Lemma rdB_ev r : nn (rdB r) /\ ev (rdB r) = rc r.
Proof.
  pose proof (binary_normalize_correct 53 1024 b64_prec_gt_0 b64_prec_lt_emax mode_NE
     (ZnearestE (scaled_mantissa radix2 fexp64 r)) (cexp radix2 fexp64 r) false) as C. cbv zeta in C.
  change (F2R (Float radix2 (ZnearestE (scaled_mantissa radix2 fexp64 r)) (cexp radix2 fexp64 r))) with (rnd r) in C.
  change (round radix2 (SpecFloat.fexp 53 1024) (round_mode mode_NE) (rnd r)) with (rnd (rnd r)) in C.
  rewrite (rnd_fmt (rnd r)) in C by (apply generic_format_round; typeclasses eauto).
  change (bpow radix2 1024) with maxR in C.
  change (binary_normalize 53 1024 b64_prec_gt_0 b64_prec_lt_emax mode_NE (ZnearestE (scaled_mantissa radix2 fexp64 r)) (cexp radix2 fexp64 r) false) with (rdB r) in C.
  pose proof maxR_pos as M.
  destruct (Rlt_bool_spec (Rabs (rnd r)) maxR) as [L|L].
  - destruct C as (A & B & _). split; [now apply nn_fin|]. rewrite ev_fin by auto. now rewrite A, rc_in.
  - cbn in C. apply overflow_val in C. rewrite C. split; [reflexivity|].
    destruct (Rlt_bool_spec (rnd r) 0) as [L0|L0]; cbn [ev].
    + rewrite rc_lo; auto. rewrite Rabs_left in L by auto. lra.
    + rewrite rc_hi; auto. rewrite Rabs_pos_eq in L; auto.
Qed.
Lemma rdB_mono a b : a <= b -> ev (rdB a) <= ev (rdB b).
Proof. intros H. rewrite !(proj2 (rdB_ev _)). now apply rc_mono. Qed.
Lemma rdB_Z k : (Z.abs k <= 2 ^ 53)%Z -> ev (rdB (IZR k)) = IZR k.
Proof. intros H. rewrite (proj2 (rdB_ev _)). now apply rc_Z. Qed.
(** correct rounding of f, given the values at the infinities *)
Definition CR (f : R -> R) (lo hi : b64) (x : b64) : b64 :=
  match x with
  | B754_infinity false => hi
  | B754_infinity true => lo
  | B754_nan => B754_nan
  | _ => rdB (f (B2R x))
  end.
Lemma CR_fin f lo hi x : bfin x -> CR f lo hi x = rdB (f (B2R x)).
Proof. destruct x; cbn; auto; discriminate. Qed.
(** the correctly rounded version of an increasing function *)
Lemma CR_incr f lo hi A B :
  nn A -> nn B -> nn lo -> nn hi -> ev lo <= ev hi ->
  (forall r s, ev A <= r -> r <= s -> s <= ev B -> f r <= f s) ->
  (forall r, ev A <= r <= ev B -> ev lo <= rc (f r) <= ev hi) ->
  b64_incr A B lo hi (CR f lo hi).
Proof.
  intros NA NB Nl Nh Llh Hm Hr.
  assert (V : forall x, nn x -> ev A <= ev x <= ev B -> nn (CR f lo hi x) /\ ev lo <= ev (CR f lo hi x) <= ev hi).
  { intros x N H. destruct (nn_cases x N) as [Fx | [-> | ->]]; cbn [CR]; try (split; auto; lra).
    rewrite CR_fin by auto. destruct (rdB_ev (f (B2R x))) as [U W]. split; auto. rewrite W. apply Hr. now rewrite <- ev_fin. }
  split.
  - intros x H1 H2. apply leb_ev in H1, H2. destruct (V x) as [U W]; [tauto|lra|]. split; apply leb_ev; intuition.
  - intros x y H1 H2 H3. apply leb_ev in H1, H2, H3. destruct H1 as (_ & Nx & L1), H2 as (_ & Ny & L2), H3 as (_ & _ & L3).
    apply leb_ev. destruct (V x Nx) as [U W]; [lra|]. destruct (V y Ny) as [U' W']; [lra|]. split; auto. split; auto.
    pose proof maxR_pos as M.
    destruct (nn_cases x Nx) as [Fx | [-> | ->]], (nn_cases y Ny) as [Fy | [-> | ->]]; cbn [CR] in *; try lra.
    + rewrite !CR_fin by auto. apply rdB_mono. rewrite (ev_fin x), (ev_fin y) in * by auto. now apply Hm.
    + pose proof (fin_lt _ Fx). rewrite ev_m in *. lra.
    + pose proof (fin_lt _ Fy). rewrite ev_p in *. lra.
    + rewrite ev_m, ev_p in *. lra.
Qed.

(** an increasing function on an interval, infinite at the ends that are given *)
Definition cl (y : R) : R := Rmax (- (2 * maxR)) (Rmin (2 * maxR) y).
Lemma cl_mono a b : a <= b -> cl a <= cl b.
Proof. intros H. unfold cl. apply Rle_max_compat_l. now apply Rle_min_compat_l. Qed.
Lemma cl_bound y : - (2 * maxR) <= cl y <= 2 * maxR.
Proof. pose proof maxR_pos. unfold cl. split; [apply Rmax_l|]. apply Rmax_lub; [lra|apply Rmin_l]. Qed.
Definition extb (lo hi : R) (g : R -> R) (r : R) : R :=
  if Rle_dec r lo then - (2 * maxR) else if Rle_dec hi r then 2 * maxR else cl (g r).
Lemma extb_mono lo hi g : (forall r s, lo < r -> r <= s -> s < hi -> g r <= g s) -> forall r s, r <= s -> extb lo hi g r <= extb lo hi g s.
Proof.
  intros H r s L. pose proof maxR_pos. unfold extb. pose proof (cl_bound (g r)). pose proof (cl_bound (g s)).
  repeat destruct Rle_dec; try lra. apply cl_mono, H; lra.
Qed.
Definition extl (lo : R) (g : R -> R) (r : R) : R := if Rle_dec r lo then - (2 * maxR) else cl (g r).
Lemma extl_mono lo g : (forall r s, lo < r -> r <= s -> g r <= g s) -> forall r s, r <= s -> extl lo g r <= extl lo g s.
Proof.
  intros H r s L. pose proof maxR_pos. unfold extl. pose proof (cl_bound (g r)). pose proof (cl_bound (g s)).
  repeat destruct Rle_dec; try lra. apply cl_mono, H; lra.
Qed.

(** ** the record of correctly rounded functions *)
Definition powR (c r : R) : R := if Rle_dec r 0 then 0 else Rpower r c.
Definition invG (a p : R) : R := if Rle_dec p 0 then 0 else if Rle_dec 1 p then 2 * maxR else Rmin (2 * maxR) (sup_inv (PG a) p).
Definition invB (a b p : R) : R := if Rle_dec p 0 then 0 else if Rle_dec 1 p then 1 else sup_inv (IB a b) p.
Definition TFR : TF := {|
  t_exp := CR Rtrigo_def.exp (bofZ 0) pI; t_log := CR (extl 0 ln) mI pI;
  t_expm1 := CR (fun r => Rtrigo_def.exp r - 1) (bofZ (-1)) pI; t_log1p := CR (extl (-1) (fun r => ln (1 + r))) mI pI;
  t_pow := fun x c => CR (powR (B2R c)) (bofZ 0) pI x; t_powZ := fun x k => CR (fun r => powerRZ r k) mI pI x;
  t_atan := CR Ratan.atan (Bopp (rdB (Rtrigo1.PI / 2))) (rdB (Rtrigo1.PI / 2)); t_tan := CR (extb (- (Rtrigo1.PI / 2)) (Rtrigo1.PI / 2) Rtrigo1.tan) mI pI;
  t_tanh := CR Rtrigo_def.tanh (bofZ (-1)) (bofZ 1); t_erf := CR erfR (bofZ (-1)) (bofZ 1);
  t_erf_inv := CR (extb (-1) 1 (sup_inv erfR)) mI pI; t_lgamma := CR (fun a => ln (Gam a)) pI pI;
  t_incgamma := fun a => CR (PG (B2R a)) (bofZ 0) (bofZ 1); t_incgamma_inv := fun a => CR (invG (B2R a)) (bofZ 0) pI;
  t_incbeta := fun a b => CR (IB (B2R a) (B2R b)) (bofZ 0) (bofZ 1); t_incbeta_inv := fun a b => CR (invB (B2R a) (B2R b)) (bofZ 0) (bofZ 1);
  t_log_binom := fun n k => rdB (ln (Binomial.C (Z.to_nat n) (Z.to_nat k))); t_factorial := fun n => rdB (INR (fact (Z.to_nat n)));
  t_PI := bmul (bofZ 2) (rdB (Rtrigo1.PI / 2)); t_LOG_2PI := rdB (ln (2 * Rtrigo1.PI)); t_LOG_2 := rdB (ln 2); t_LOG_PI := rdB (ln Rtrigo1.PI);
  t_SQRT_2 := rdB (R_sqrt.sqrt 2); t_SQRT_HALF_PI := rdB (R_sqrt.sqrt (Rtrigo1.PI / 2)) |}.

Lemma rcr (a b : Z) r : (Z.abs a <= 2 ^ 53)%Z -> (Z.abs b <= 2 ^ 53)%Z -> IZR a <= r <= IZR b -> ev (bofZ a) <= rc r <= ev (bofZ b).
Proof. intros Ha Hb H. rewrite (proj2 (ev_Z a Ha)), (proj2 (ev_Z b Hb)). now apply rc_range. Qed.
Lemma rcp (a : Z) r : (Z.abs a <= 2 ^ 53)%Z -> IZR a <= r -> ev (bofZ a) <= rc r <= ev pI.
Proof. intros Ha H. rewrite (proj2 (ev_Z a Ha)). split; [|apply rc_bound]. rewrite <- (rc_Z a Ha). now apply rc_mono. Qed.
Lemma rcpm r : ev mI <= rc r <= ev pI. Proof. apply rc_bound. Qed.
Ltac crz := first [reflexivity | exact (proj1 (ev_Z 0 ltac:(sm))) | exact (proj1 (ev_Z 1 ltac:(sm))) | exact (proj1 (ev_Z (-1) ltac:(sm)))].
Lemma ev0 : ev (bofZ 0) = 0. Proof. exact (proj2 (ev_Z 0 ltac:(sm))). Qed.
Lemma ev1 : ev (bofZ 1) = 1. Proof. exact (proj2 (ev_Z 1 ltac:(sm))). Qed.
Lemma evm1 : ev (bofZ (-1)) = -1. Proof. exact (proj2 (ev_Z (-1) ltac:(sm))). Qed.
Ltac crle := rewrite ?ev0, ?ev1, ?evm1; unfold pI, mI; rewrite ?ev_p, ?ev_m; pose proof maxR_1; lra.

Lemma TFR_erf : sym_fun (t_erf TFR).
Proof.
  apply CR_incr; try crz; [crle|intros; now apply erfR_le|].
  intros r _. apply rcr; try sm. pose proof (erfR_range r). lra.
Qed.
Lemma exp_le a b : a <= b -> Rtrigo_def.exp a <= Rtrigo_def.exp b.
Proof. intros [H | ->]; [left; now apply exp_increasing|lra]. Qed.
Lemma tanh_val r : Rtrigo_def.tanh r = 1 - 2 / (Rtrigo_def.exp (2 * r) + 1).
Proof.
  unfold Rtrigo_def.tanh, Rtrigo_def.sinh, Rtrigo_def.cosh. pose proof (exp_pos r). pose proof (exp_pos (- r)).
  replace (Rtrigo_def.exp (2 * r)) with (Rtrigo_def.exp r * Rtrigo_def.exp r) by (rewrite <- exp_plus; f_equal; lra).
  rewrite exp_Ropp. field. nra.
Qed.
Lemma TFR_tanh : sym_fun (t_tanh TFR).
Proof.
  assert (P : forall r, 0 < / (Rtrigo_def.exp (2 * r) + 1) < 1).
  { intros r. pose proof (exp_pos (2 * r)). split; [apply Rinv_0_lt_compat; lra|]. rewrite <- Rinv_1. apply Rinv_lt_contravar; lra. }
  apply CR_incr; try crz; [crle|..].
  - intros r s _ L _. rewrite !tanh_val. pose proof (exp_pos (2 * r)). assert (/ (Rtrigo_def.exp (2 * s) + 1) <= / (Rtrigo_def.exp (2 * r) + 1)).
    { apply Rinv_le_contravar; [lra|]. apply Rplus_le_compat_r. apply exp_le. lra. } unfold Rdiv. lra.
  - intros r _. rewrite tanh_val. pose proof (P r). apply rcr; try sm. unfold Rdiv. lra.
Qed.
Lemma TFR_SQRT_2 : b64_pos (t_SQRT_2 TFR).
Proof.
  cbn [t_SQRT_2 TFR]. destruct (rdB_ev (R_sqrt.sqrt 2)) as [A B].
  assert (1 <= R_sqrt.sqrt 2 <= 2). { pose proof (sqrt_sqrt 2 ltac:(lra)). pose proof (sqrt_pos 2). split; nra. }
  pose proof (rc_range 1 2 _ ltac:(sm) ltac:(sm) H). pose proof maxR_1.
  split; apply ltb_ev; try crz; auto; rewrite B; [rewrite ev0|unfold plus_inf; rewrite ev_p]; lra.
Qed.
Lemma ln_le' a b : 0 < a -> a <= b -> ln a <= ln b.
Proof. intros P [H | ->]; [left; now apply ln_increasing|lra]. Qed.
Lemma TFR_log : b64_incr (bofZ 0) plus_inf minus_inf plus_inf (t_log TFR).
Proof.
  apply CR_incr; try crz; [crle| |intros; apply rcpm].
  intros r s _ L _. apply extl_mono; auto. intros; now apply ln_le'.
Qed.
Lemma PI2_1 : 1 <= Rtrigo1.PI / 2 <= 2. Proof. pose proof PI2_1. pose proof PI_4. unfold Rdiv in *. lra. Qed.
Lemma TFR_PI : b64_pos (t_PI TFR) /\ ev (t_PI TFR) = 2 * ev (rdB (Rtrigo1.PI / 2)).
Proof.
  cbn [t_PI TFR]. destruct (rdB_ev (Rtrigo1.PI / 2)) as [A B]. pose proof PI2_1 as P. pose proof maxR_1 as M.
  pose proof (rc_range 1 2 _ ltac:(sm) ltac:(sm) P) as Q. rewrite <- B in Q.
  destruct (fin_of _ 1 2 A Q ltac:(lra) ltac:(lra)) as [Fr Rr]. destruct (bofZ_R 2 ltac:(sm)) as [A2 F2].
  destruct (mul_ff _ _ F2 Fr) as [U V]. rewrite A2 in V.
  assert (E : rc (2 * B2R (rdB (Rtrigo1.PI / 2))) = 2 * B2R (rdB (Rtrigo1.PI / 2))).
  { rewrite rc_in; rewrite rnd_fmt by (apply fmt2, generic_format_B2R); auto. pose proof (maxR_big 4 ltac:(sm)) as M4. cbn in M4. rewrite Rabs_pos_eq; lra. }
  rewrite E in V. pose proof (maxR_big 4 ltac:(sm)) as M4. cbn in M4. rewrite (ev_fin (rdB _) Fr). split; auto.
  split; apply ltb_ev; try crz; auto; rewrite V; [rewrite ev0|unfold plus_inf; rewrite ev_p]; lra.
Qed.
Lemma TFR_atan : atan_ok TFR.
Proof.
  pose proof PI2_1 as P. destruct (rdB_ev (Rtrigo1.PI / 2)) as [A B]. destruct (nn_opp _ A) as [A' B'].
  pose proof (rc_range 1 2 _ ltac:(sm) ltac:(sm) P) as Q. pose proof maxR_1 as M.
  assert (K : b64_incr minus_inf plus_inf (Bopp (rdB (Rtrigo1.PI / 2))) (rdB (Rtrigo1.PI / 2)) (t_atan TFR)).
  { apply CR_incr; auto; try crz.
    - rewrite B', B. lra.
    - intros r s _ [L | ->] _; [left; now apply atan_increasing|lra].
    - intros r _. rewrite B', B, <- rc_opp. pose proof (atan_bound r). split; apply rc_mono; lra. }
  destruct (incr_ev minus_inf plus_inf _ _ _ eq_refl eq_refl K) as [K1 K2].
  destruct (bofZ_R 2 ltac:(sm)) as [A2 F2]. assert (P2 : bpos (bofZ 2)) by (split; [auto|lra]).
  assert (W : forall x, nn x -> nn (t_atan TFR x) /\ ev (Bopp (rdB (Rtrigo1.PI / 2))) <= ev (t_atan TFR x) <= ev (rdB (Rtrigo1.PI / 2))).
  { intros x N. apply K1; auto. apply ev_bound. }
  destruct TFR_PI as [PP EP]. pose proof (pos_bpos _ PP) as [FP _].
  split; split.
  - intros x L1 L2. apply leb_ev in L1, L2. destruct (W x) as [U _]; [tauto|]. pose proof (ev_bound (t_atan TFR x)).
    split; apply leb_ev; repeat split; auto; unfold minus_inf, plus_inf; rewrite ?ev_m, ?ev_p; lra.
  - apply K.
  - intros x L1 L2. apply leb_ev in L1, L2. destruct (W x) as [U [W1 W2]]; [tauto|].
    assert (N2 : nn (bmul (bofZ 2) (t_atan TFR x))) by now apply bmul_l_nn.
    destruct (fin_of _ (-2) 2 U ltac:(rewrite B', B in *; lra) ltac:(lra) ltac:(lra)) as [Fa Ra].
    pose proof (proj2 (mul_ff _ _ F2 Fa)) as E. rewrite A2 in E.
    assert (E2 : rc (2 * B2R (t_atan TFR x)) = 2 * B2R (t_atan TFR x)).
    { rewrite rc_in; rewrite rnd_fmt by (apply fmt2, generic_format_B2R); auto. pose proof (maxR_big 4 ltac:(sm)) as M4. cbn in M4. apply Rabs_def1; lra. }
    rewrite E2, <- (ev_fin _ Fa) in E. rewrite B' in W1.
    destruct (nn_opp (t_PI TFR) (nn_fin _ FP)) as [O1 O2].
    split; apply leb_ev; repeat split; auto; [rewrite O2|apply nn_fin, FP|]; lra.
  - intros x y L1 L2 L3. apply leb_ev in L1, L2, L3. apply leb_ev. destruct (W x) as [U _]; [tauto|]. destruct (W y) as [U' _]; [tauto|].
    split; [now apply bmul_l_nn|]. split; [now apply bmul_l_nn|]. apply bmul_l; auto; try now apply in_dom. apply K2; try tauto.
Qed.
Lemma TFR_expm1 : expm1_ok TFR.
Proof.
  assert (K : b64_incr minus_inf (bofZ 0) (bofZ (-1)) pI (t_expm1 TFR)).
  { apply CR_incr; try crz; [crle|..].
    - intros r s _ L _. apply Rplus_le_compat_r, exp_le, L.
    - intros r _. apply rcp; [sm|]. pose proof (exp_pos r). lra. }
  split; [|apply K]. intros x L1 L2. split; [now apply K|].
  apply leb_ev in L1, L2. destruct L2 as (N & N0 & L). rewrite ev0 in L.
  assert (Hx : nn (t_expm1 TFR x) /\ ev (t_expm1 TFR x) <= 0).
  { destruct (nn_cases x N) as [Fx | [-> | ->]].
    - cbn [t_expm1 TFR]. rewrite CR_fin by auto. destruct (rdB_ev (Rtrigo_def.exp (B2R x) - 1)) as [U V]. split; auto. rewrite V, <- rc_0. apply rc_mono.
      rewrite ev_fin in L by auto. apply exp_le in L. rewrite exp_0 in L. lra.
    - rewrite ev_p in L. pose proof maxR_pos. lra.
    - cbn [t_expm1 TFR CR]. split; [crz|crle]. }
  apply leb_ev. split; [tauto|]. split; [crz|]. rewrite ev0. tauto.
Qed.
Lemma TFR_exp_all : b64_incr minus_inf plus_inf (bofZ 0) plus_inf (t_exp TFR).
Proof.
  apply CR_incr; try crz; [crle|..].
  - intros r s _ L _. now apply exp_le.
  - intros r _. apply rcp; [sm|]. left. apply exp_pos.
Qed.
Lemma TFR_exp : exp_ok TFR.
Proof.
  pose proof TFR_exp_all as K. 
  assert (K0 : forall x, Bleb minus_inf x = true -> Bleb x (bofZ 0) = true -> Bleb x plus_inf = true).
  { intros x L1 L2. apply leb_ev in L1, L2. apply leb_ev. repeat split; try tauto. apply ev_bound. }
  split.
  - intros x L1 L2. split; [apply K; auto|]. apply leb_ev in L1, L2. destruct L2 as (N & N0 & L). rewrite ev0 in L.
    assert (Hx : nn (t_exp TFR x) /\ ev (t_exp TFR x) <= 1).
    { destruct (nn_cases x N) as [Fx | [-> | ->]].
      - cbn [t_exp TFR]. rewrite CR_fin by auto. destruct (rdB_ev (Rtrigo_def.exp (B2R x))) as [U V]. split; auto. rewrite V, <- (rc_Z 1) by sm. apply rc_mono.
        rewrite ev_fin in L by auto. apply exp_le in L. rewrite exp_0 in L. lra.
      - rewrite ev_p in L. pose proof maxR_pos. lra.
      - cbn [t_exp TFR CR]. split; [crz|crle]. }
    apply leb_ev. split; [tauto|]. split; [crz|]. rewrite ev1. tauto.
  - intros x y L1 L2 L3. apply K; auto. apply (K0 y); auto. apply leb_ev in L1, L2. apply leb_ev. repeat split; try tauto. apply ev_bound.
Qed.
Lemma Rpower_le_base a b c : 0 < a -> a <= b -> 0 < c -> Rpower a c <= Rpower b c.
Proof. intros P L C. unfold Rpower. apply exp_le. apply Rmult_le_compat_l; [lra|]. now apply ln_le'. Qed.
Lemma TFR_pow : pow_ok TFR.
Proof.
  intros c Pc. apply pos_bpos in Pc. destruct Pc as [Fc Pc].
  assert (N0 : forall r, 0 <= powR (B2R c) r) by (intros r; unfold powR; destruct Rle_dec; [lra|left; apply exp_pos]).
  apply CR_incr; try crz; [crle|..].
  - intros r s _ L _. pose proof (N0 s). unfold powR in *. repeat destruct Rle_dec; try lra. apply Rpower_le_base; lra.
  - intros r _. apply rcp; [sm|]. apply N0.
Qed.
Lemma TFR_incgamma : incgamma_ok TFR.
Proof.
  intros a Pa. apply pos_bpos in Pa. destruct Pa as [Fa Pa]. apply CR_incr; try crz; [crle|..]; rewrite ev0.
  - intros r s L1 L2 _. now apply PG_le.
  - intros r [L _]. rewrite <- ev0. apply rcr; try sm. pose proof (PG_range (B2R a) r Pa L). lra.
Qed.
Lemma TFR_incbeta : incbeta_ok TFR.
Proof.
  intros a b Pa Pb. apply pos_bpos in Pa, Pb. destruct Pa as [Fa Pa], Pb as [Fb Pb]. apply CR_incr; try crz; [crle|..]; rewrite ev0, ev1.
  - intros r s L1 L2 L3. now apply IB_le.
  - intros r L. rewrite <- ev0, <- ev1. apply rcr; try sm. now apply IB_range.
Qed.
