(** The draws of the transformation samplers as functions of the variates they consume. *)
From Coq Require Import Reals ZArith QArith Bool List Lra Lia Psatz.
From Coquelicot Require Import Coquelicot.
From Verif Require Import RealElem Analysis Spec SpecSF NormR PowInt GammaFn BetaFn FamR SpecLaw LawR LawR2 LawR3 LawR4 LawB.
From Verif Require Import Num Sanity ER ERTac Prob Dens Quant SpecER ClosedElem LogForm Support Rand SpecRand SpecDraw RandER RandGamma.
Import ListNotations.
Local Open Scope R_scope.

Section S.
Context (S : SF) {E : Type} (G : Rng ER E) (OK : rng_ok G).
Notation NS := (ER_Num S).
Notation eps := (sf_eps S).

Lemma rbinom_loop_toss p : 0 <= p <= 1 -> forall n k e, exists bs e', tosses G p e bs e' /\ length bs = n /\
  rbinom_loop (N:=NS) G n (Fin p) (Fin (INR k)) e = (Fin (INR (k + wins bs)), e').
Proof.
  intros Hp. induction n as [|n IH]; intros k e.
  - exists nil, e. repeat split; [constructor|]. cbn. now rewrite Nat.add_0_r.
  - cbn [rbinom_loop]. destruct (runif01_ok S G OK e) as (u & e1 & D & U & H).
    rewrite (rbern_val S G p e u e1) by auto.
    destruct (Rle_dec u p) as [L|L] eqn:Q.
    + destruct (IH (Datatypes.S k) e1) as (bs & e2 & T & Len & Hr). exists (true :: bs), e2. split; [|split].
      * replace true with (if Rle_dec u p then true else false) by (now rewrite Q). now apply toss_cons with e1.
      * cbn. now rewrite Len.
      * un_cls. rewrite eadd_F. rewrite <- S_INR. refold S. rewrite Hr. rewrite wins_true. do 3 f_equal. lia.
    + destruct (IH k e1) as (bs & e2 & T & Len & Hr). exists (false :: bs), e2. split; [|split].
      * replace false with (if Rle_dec u p then true else false) by (now rewrite Q). now apply toss_cons with e1.
      * cbn. now rewrite Len.
      * un_cls. rewrite eadd_F, Rplus_0_r. refold S. exact Hr.
Qed.
Lemma rbinom_law n p : 0 <= p <= 1 ->
  (forall e, exists bs e', tosses G p e bs e' /\ length bs = n /\
     rbinom (N:=NS) G (Z.of_nat n) (Fin p) e = (Fin (INR (wins bs)), e')) /\
  forall k, win_prob n p k = binom_pmf n p k.
Proof.
  intros Hp. split; [|intros; apply win_prob_binom]. intros e.
  destruct (rbinom_loop_toss p Hp n 0 e) as (bs & e' & T & L & H). exists bs, e'. repeat split; auto.
  unfold rbinom. replace (binom_sanity (N:=NS) (Z.of_nat n) (Fin p)) with true.
  - cbn [negb]. rewrite Nat2Z.id. exact H.
  - un_cls. rewrite (proj2 (Z.ltb_ge (Z.of_nat n) 0)) by lia. er_arith. rdecide. auto.
Qed.

Lemma rgamma_law k th : 1 < k -> 0 < th -> eps <= th ->
  (forall e v e', (exists fuel, rgamma (N:=NS) G fuel (Fin k) (Fin th) e = Some (v, e')) <->
     exists x, v = Fin ((k - 1 / 3) * x * th) /\ accepts G (k - 1 / 3) e x e') /\
  exists K, 0 < K <= 1 /\ region_mass (mt_accept (k - 1 / 3)) K /\
    forall x, 0 < x ->
      region_mass (fun z u => mt_accept (k - 1 / 3) z u /\ (k - 1 / 3) * mt_v (k - 1 / 3) z * th <= x) (K * gamma_cdf k th x) /\
      is_lim_seq (fun n => within K (fun x => K * gamma_cdf k th x) n x) (gamma_cdf k th x).
Proof.
  intros Hk Ht He. split; [intros; now apply rgamma_big_iff|].
  assert (Hd : 0 < k - 1 / 3) by lra. exists (mt_K (k - 1 / 3)).
  assert (HK : 0 < mt_K (k - 1 / 3) <= 1) by (split; [now apply mt_K_pos|now apply mt_K_le with th]).
  split; [auto|]. split; [now apply mt_region_all with th|]. intros x Hx.
  pose proof (mt_region (k - 1 / 3) Hd th Ht x Hx) as Q. replace (k - 1 / 3 + 1 / 3) with k in Q by ring. split; [exact Q|].
  apply within_lim; auto.
Qed.
Lemma small_le_iff k w u x : 0 < k -> 0 < u -> w * Rpower u (1 / k) <= x <-> w <= x * Rpower u (- / k).
Proof.
  intros Hk Hu. assert (E1 : Rpower u (1 / k) * Rpower u (- / k) = 1).
  { rewrite <- Rpower_plus. replace (1 / k + - / k) with 0 by (field; lra). apply Rpower_O. lra. }
  pose proof (Rpower_pos u (1 / k)) as P1. pose proof (Rpower_pos u (- / k)) as P2.
  split; intros H.
  - apply (Rmult_le_compat_r (Rpower u (- / k))) in H; [|lra]. rewrite Rmult_assoc, E1 in H. lra.
  - apply (Rmult_le_compat_r (Rpower u (1 / k))) in H; [|lra]. rewrite (Rmult_assoc x), (Rmult_comm (Rpower u (- / k))), E1 in H. lra.
Qed.
Lemma rgamma_small_law k th : 0 < k <= 1 -> 0 < th -> eps <= th ->
  (forall e v e', (exists fuel, rgamma (N:=NS) G fuel (Fin k) (Fin th) e = Some (v, e')) ->
     exists u e1 w, unit_draw G e u e1 /\ 0 < u < 1 /\ v = Fin (w * Rpower u (1 / k)) /\
       (exists fuel, rgamma (N:=NS) G fuel (Fin (k + 1)) (Fin th) e1 = Some (Fin w, e')) /\
       forall x, w * Rpower u (1 / k) <= x <-> w <= x * Rpower u (- / k)) /\
  forall x, 0 < x ->
    is_RInt_gen (fun u => gamma_cdf (k + 1) th (x * Rpower u (- / k))) (at_right 0) (at_point 1) (gamma_cdf k th x).
Proof.
  intros Hk Ht He. split.
  - intros e v e' H. destruct (runif01_ok S G OK e) as (u & e1 & Du & U & _).
    apply (rgamma_small_iff S G OK k th e v e' u e1 Hk He Du) in H. destruct H as (x & -> & A).
    exists u, e1, ((1 + k - 1 / 3) * x * th). split; [auto|]. split; [auto|]. split; [auto|]. split; [|intros; apply small_le_iff; lra].
    apply (rgamma_big_iff S G OK); [lra|auto|]. exists x. replace (k + 1) with (1 + k) by ring. auto.
  - intros x Hx. assert (Q : 0 < x / th) by now apply Rdiv_lt_0_compat.
    apply (is_RInt_gen_ext (fun u => PG (k + 1) (x / th * Rpower u (- / k)))).
    2:{ unfold gamma_cdf. apply boost; lra. }
    exists (fun _ => True) (fun _ => True); [apply filter_true|exact I|]. intros a b _ _ t _. unfold gamma_cdf. f_equal.
    lazymatch goal with |- ?a = ?b => change (@eq R a b) end. field. lra.
Qed.
Lemma rchisq_law d : 0 < d -> (forall fuel e, rchisq (N:=NS) G fuel (Fin d) e = rgamma (N:=NS) G fuel (Fin (d / 2)) (Fin 2) e) /\
  forall x, chisq_cdf d x = gamma_cdf (d / 2) 2 x.
Proof.
  intros Hd. split; [|reflexivity]. intros fuel e. unfold rchisq.
  replace (chisq_sanity1 (N:=NS) (Fin d)) with true by (un_cls; er_arith; rdecide; auto). cbn [negb].
  replace (div (Num:=NS) (Fin d) (ofZ (Num:=NS) 2)) with (Fin (d / 2)) by (un_cls; er_arith; auto). reflexivity.
Qed.
Ltac some_inj H :=
  match type of H with Some (?a, ?b) = Some (?v, ?w) =>
    assert (v = a) by congruence; assert (w = b) by congruence; clear H; subst v w end.
Lemma rinvgamma_law a b : 0 < eps -> 0 < a -> 0 < b -> eps <= 1 / b ->
  (forall fuel e v e', rinvgamma (N:=NS) G fuel (Fin a) (Fin b) e = Some (v, e') ->
     exists w, 0 < w /\ rgamma (N:=NS) G fuel (Fin a) (Fin (1 / b)) e = Some (Fin w, e') /\ v = Fin (1 / w) /\
       forall x, 0 < x -> (1 / w <= x <-> 1 / x <= w)) /\
  forall x, 0 < x -> is_RInt_gen (gamma_pdf a (1 / b)) (at_point (1 / x)) (Rbar_locally p_infty) (invgamma_cdf a b x).
Proof.
  intros He Ha Hb Hr. split; [|intros; now apply invgamma_mass].
  intros fuel e v e' H. unfold rinvgamma in H.
  replace (invgamma_sanity2 (N:=NS) (Fin a) (Fin b)) with true in H by (un_cls; er_arith; rdecide; auto). cbn [negb] in H.
  replace (div (Num:=NS) (ofZ (Num:=NS) 1) (Fin b)) with (Fin (1 / b)) in H by (un_cls; er_arith; auto).
  destruct (rgamma G fuel _ _ e) as [[X e1]|] eqn:HR; [|discriminate]. some_inj H.
  destruct (rgamma_in S G OK a (1 / b) He Ha Hr fuel _ _ _ HR) as (w & -> & Hw). exists w.
  split; [auto|]. split; [auto|]. split; [un_cls; er_arith; auto|]. intros x Hx. split; intros L.
  - apply (Rmult_le_reg_r x); [auto|]. replace (1 / x * x) with 1 by (field; lra).
    apply (Rmult_le_compat_r w) in L; [|lra]. replace (1 / w * w) with 1 in L by (field; lra). lra.
  - apply (Rmult_le_reg_r w); [auto|]. replace (1 / w * w) with 1 by (field; lra).
    apply (Rmult_le_compat_r x) in L; [|lra]. replace (1 / x * x) with 1 in L by (field; lra). lra.
Qed.
Lemma rbeta_law a b : 0 < eps <= 1 -> 0 < a -> 0 < b ->
  (forall fuel e v e', rbeta (N:=NS) G fuel (Fin a) (Fin b) e = Some (v, e') ->
     exists X Y e1, 0 < X /\ 0 < Y /\ rgamma (N:=NS) G fuel (Fin a) (Fin 1) e = Some (Fin X, e1) /\
       rgamma (N:=NS) G fuel (Fin b) (Fin 1) e1 = Some (Fin Y, e') /\ v = Fin (X / (X + Y)) /\
       forall x, 0 < x < 1 -> (X / (X + Y) <= x <-> X <= x / (1 - x) * Y)) /\
  forall x, 0 < x < 1 -> mixed (gamma_pdf b 1) (fun y => gamma_cdf a 1 (x / (1 - x) * y)) (beta_cdf a b x).
Proof.
  intros He Ha Hb. split; [|intros; now apply beta_mixed].
  intros fuel e v e' H. unfold rbeta in H.
  replace (beta_sanity2 (N:=NS) (Fin a) (Fin b)) with true in H by (un_cls; er_arith; rdecide; auto). cbn [negb] in H.
  change (ofZ (Num:=NS) 1) with (Fin 1) in H.
  destruct (rgamma G fuel (Fin a) _ e) as [[X0 e1]|] eqn:HR; [|discriminate].
  destruct (rgamma G fuel (Fin b) _ e1) as [[Y0 e2]|] eqn:HR2; [|discriminate]. some_inj H.
  destruct (rgamma_in S G OK a 1 ltac:(lra) Ha ltac:(lra) fuel _ _ _ HR) as (X & -> & HX).
  destruct (rgamma_in S G OK b 1 ltac:(lra) Hb ltac:(lra) fuel _ _ _ HR2) as (Y & -> & HY). exists X, Y, e1.
  split; [auto|]. split; [auto|]. split; [auto|]. split; [auto|]. split; [un_cls; er_arith; auto|]. intros x Hx.
  transitivity (X <= x * (X + Y)); [|transitivity (X * (1 - x) <= x * Y); [split; lra|]].
  - split; intros L.
    + apply (Rmult_le_compat_r (X + Y)) in L; [|lra]. replace (X / (X + Y) * (X + Y)) with X in L by (field; lra). lra.
    + apply (Rmult_le_reg_r (X + Y)); [lra|]. replace (X / (X + Y) * (X + Y)) with X by (field; lra). lra.
  - split; intros L.
    + apply (Rmult_le_reg_r (1 - x)); [lra|]. replace (x / (1 - x) * Y * (1 - x)) with (x * Y) by (field; lra). lra.
    + apply (Rmult_le_compat_r (1 - x)) in L; [|lra]. replace (x / (1 - x) * Y * (1 - x)) with (x * Y) in L by (field; lra). lra.
Qed.
Lemma rf_law d1 d2 : 0 < eps <= 2 -> eps <= d1 -> eps <= d2 ->
  (forall fuel e v e', rf (N:=NS) G fuel (Fin d1) (Fin d2) e = Some (v, e') ->
     exists X Y e1, 0 < X /\ 0 < Y /\ rchisq (N:=NS) G fuel (Fin d1) e = Some (Fin X, e1) /\
       rchisq (N:=NS) G fuel (Fin d2) e1 = Some (Fin Y, e') /\ v = Fin (d2 / d1 * X / Y) /\
       forall x, d2 / d1 * X / Y <= x <-> X <= d1 / d2 * x * Y) /\
  forall x, 0 < x -> mixed (chisq_pdf d2) (fun y => chisq_cdf d1 (d1 / d2 * x * y)) (f_cdf d1 d2 x).
Proof.
  intros He Ha Hb. split; [|intros; apply f_mixed; lra].
  intros fuel e v e' H. unfold rf in H.
  replace (f_sanity2 (N:=NS) (Fin d1) (Fin d2)) with true in H by (un_cls; er_arith; rdecide; auto). cbn [negb] in H.
  destruct (rchisq G fuel (Fin d1) e) as [[X0 e1]|] eqn:HR; [|discriminate].
  destruct (rchisq G fuel (Fin d2) e1) as [[Y0 e2]|] eqn:HR2; [|discriminate]. some_inj H.
  destruct (rchisq_in S G OK d1 He ltac:(lra) fuel _ _ _ HR) as (X & -> & HX).
  destruct (rchisq_in S G OK d2 He ltac:(lra) fuel _ _ _ HR2) as (Y & -> & HY). exists X, Y, e1.
  split; [auto|]. split; [auto|]. split; [auto|]. split; [auto|]. split; [un_cls; er_arith; auto|]. intros x.
  assert (P : 0 < d1 / d2) by (apply Rdiv_lt_0_compat; lra).
  split; intros L.
  - apply (Rmult_le_compat_r (d1 / d2 * Y)) in L; [|nra].
    replace (d2 / d1 * X / Y * (d1 / d2 * Y)) with X in L by (field; lra). lra.
  - apply (Rmult_le_reg_r (d1 / d2 * Y)); [nra|].
    replace (d2 / d1 * X / Y * (d1 / d2 * Y)) with X by (field; lra). lra.
Qed.
Lemma rt_law n : 0 < eps <= 2 -> eps <= n ->
  (forall fuel e v e', rt (N:=NS) G fuel (Fin n) e = Some (v, e') ->
     exists z X e1, 0 < X /\ normal_draw G e z e1 /\ rchisq (N:=NS) G fuel (Fin n) e1 = Some (Fin X, e') /\
       v = Fin (z / R_sqrt.sqrt (X / n)) /\ forall x, z / R_sqrt.sqrt (X / n) <= x <-> z <= x * R_sqrt.sqrt (X / n)) /\
  forall x, mixed (chisq_pdf n) (fun y => norm_cdf 0 1 (x * R_sqrt.sqrt (y / n))) (t_cdf n x).
Proof.
  intros He Hd. split; [|intros; apply t_mixed; lra].
  intros fuel e v e' H. unfold rt in H.
  replace (t_sanity1 (N:=NS) (Fin n)) with true in H by (un_cls; er_arith; rdecide; auto). cbn [negb] in H.
  destruct (norm_ex G OK e) as (z & e1 & Dz). rewrite (rnorm01_det S G e z e1 Dz) in H.
  destruct (rchisq G fuel (Fin n) e1) as [[X0 e2]|] eqn:HR; [|discriminate]. some_inj H.
  destruct (rchisq_in S G OK n He ltac:(lra) fuel _ _ _ HR) as (X & -> & HX). exists z, X, e1.
  assert (P : 0 < X / n) by (apply Rdiv_lt_0_compat; lra). pose proof (sqrt_lt_R0 _ P) as P2.
  split; [auto|]. split; [auto|]. split; [auto|]. split.
  { un_cls. rewrite (ediv_F X n), esqrt_F, ediv_F by lra. reflexivity. }
  intros x. set (s := R_sqrt.sqrt (X / n)) in *. split; intros L.
  - apply (Rmult_le_compat_r s) in L; [|lra]. replace (z / s * s) with z in L by (field; lra). lra.
  - apply (Rmult_le_reg_r s); [lra|]. replace (z / s * s) with z by (field; lra). lra.
Qed.
Lemma rinvgauss_law mu l : 0 < mu -> 0 < l -> exists draw : R -> R -> R,
  (forall e, exists z u e1 e2, normal_draw G e z e1 /\ unit_draw G e1 u e2 /\ 0 < u < 1 /\
     rinvgauss (N:=NS) G (Fin mu) (Fin l) e = (Fin (draw z u), e2)) /\
  forall x, 0 < x -> region_mass (fun z u => draw z u <= x) (invgauss_cdf mu l x).
Proof.
  intros Hm Hl. exists (fun z u => if Rle_dec u (mu / (mu + ig_x1 mu l z)) then ig_x1 mu l z else mu * mu / ig_x1 mu l z).
  split; [|intros; now apply ig_region].
  intros e. destruct (norm_ex G OK e) as (z & e1 & Dz). destruct (runif01_ok S G OK e1) as (u & e2 & Du & U & _).
  exists z, u, e1, e2. split; [auto|]. split; [auto|]. split; [auto|].
  apply (rinvgauss_val S G mu l e z e1 u e2 Hm Hl Dz Du).
Qed.
End S.
