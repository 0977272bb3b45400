(** Round trips in binary64: the distribution function at the computed quantile. *)
From Coq Require Import ZArith QArith Reals Bool Lra Lia.
From Verif Require Import RealElem RealAcc RealAccQ RealTrip Erf GammaFn BetaFn NormR Spec SpecSF.
From Verif Require Import Num Sanity Prob Dens Quant B64 B64R B64Ord SpecB64 SpecAcc SpecAccQ SpecTrip B64Cdf B64Cdf2 B64Cdf3 B64Unif B64Quant B64Quant2 B64Acc B64AccCdf B64AccCdf2 B64AccCdf3 B64AccQ B64AccQ2 B64AccQ3 B64AccQ4.
From Flocq Require Import Core Sterbenz IEEE754.BinarySingleNaN.
Local Open Scope R_scope.
Notation exp := Rtrigo_def.exp. Notation PI := Rtrigo1.PI. Notation tan := Rtrigo1.tan.

Lemma big_pos : 1000000 <= big. Proof. unfold big. eapply Rle_trans; [|apply bpow_le with (e1 := 30%Z); lia]. cbn. lra. Qed.
Lemma bpow_IZR k : (0 <= k)%Z -> bpow radix2 k = IZR (2 ^ k).
Proof. intros. rewrite <- IZR_Zpower by auto. reflexivity. Qed.
Lemma big_big : IZR (2 ^ 100) * (big * big) <= huge.
Proof. change (IZR (2 ^ 100)) with (bpow radix2 100). unfold big, huge. rewrite <- !bpow_plus. apply bpow_le. lia. Qed.
Lemma big_1 : IZR (2 ^ 100) * big <= huge.
Proof. change (IZR (2 ^ 100)) with (bpow radix2 100). unfold big, huge. rewrite <- !bpow_plus. apply bpow_le. lia. Qed.
Lemma big_huge : / huge <= / big. Proof. apply Rinv_le_contravar; [apply bpow_gt_0|]. unfold big, huge. apply bpow_le. lia. Qed.
Lemma tiny_big : tiny * big <= ulp1 / 1000000.
Proof. unfold tiny, big, ulp1. rewrite <- bpow_plus. apply Rle_trans with (bpow radix2 (-72)); [apply bpow_le; lia|]. cbn. lra. Qed.
Lemma tiny_big2 : tiny * big * big <= ulp1 / 1000000.
Proof. unfold tiny, big, ulp1. rewrite <- !bpow_plus. apply Rle_trans with (bpow radix2 (-72)); [apply bpow_le; lia|]. cbn. lra. Qed.

Lemma tiny_mul x : 0 <= x <= big -> tiny * x <= ulp1 / 1000000.
Proof. intros H. pose proof tiny_big. pose proof tiny_pos. assert (tiny * x <= tiny * big) by (apply Rmult_le_compat_l; lra). lra. Qed.
Lemma e_mul x y : 0 <= x -> 0 <= y <= 1 -> x * y <= x.
Proof. intros. rewrite <- (Rmult_1_r x) at 2. apply Rmult_le_compat_l; lra. Qed.

Section Trip.
Variable F : TF.
Notation NB := (B64_Num F).
Variable e : R.
Hypothesis He : unit_ok e.
Local Notation e_pos := (e_pos e He).

Lemma usual_bounds mu sigma : usual mu sigma -> bfin mu /\ bpos sigma /\ 0 < / B2R sigma <= big /\ Rabs (B2R mu) <= big /\ / big <= B2R sigma <= big /\ / huge <= B2R sigma /\ 0 <= offset mu sigma <= big * big.
Proof.
  intros (Fm & [Fs Ps] & Hm & Hs). pose proof big_pos. pose proof big_huge. assert (I : 0 < / B2R sigma) by now apply Rinv_0_lt_compat.
  assert (J : / B2R sigma <= big). { rewrite <- (Rinv_inv big). apply Rinv_le_contravar; [apply Rinv_0_lt_compat; lra|lra]. }
  pose proof (Rabs_pos (B2R mu)). split; [exact Fm|]. split; [split; [exact Fs|exact Ps]|]. repeat split; try lra; unfold offset, Rdiv; nra.
Qed.
Lemma reach_ok mu sigma q (x : b64) : usual mu sigma -> Rabs (q - B2R mu) <= IZR (2 ^ 60) * big -> Rabs (B2R x - q) <= Rabs (q - B2R mu) + Rabs (B2R mu) + 1 + B2R sigma ->
  Rabs (B2R x - B2R mu) <= huge /\ Rabs ((B2R x - B2R mu) / B2R sigma) <= huge.
Proof.
  intros U Hq Hx. destruct (usual_bounds _ _ U) as (_ & Ps & I & Hm & Hs & _). pose proof big_pos. pose proof big_1 as B1. pose proof big_big as B2.
  assert (K : Rabs (B2R x - B2R mu) <= IZR (2 ^ 62) * big).
  { replace (B2R x - B2R mu) with ((B2R x - q) + (q - B2R mu)) by ring. eapply Rle_trans; [apply Rabs_triang|]. revert Hq. change (IZR (2 ^ 60)) with 1152921504606846976. change (IZR (2 ^ 62)) with 4611686018427387904. intros. nra. }
  revert K B1 B2. change (IZR (2 ^ 62)) with 4611686018427387904. change (IZR (2 ^ 100)) with 1267650600228229401496703205376. intros.
  split; [lra|]. unfold Rdiv. rewrite Rabs_mult, (Rabs_pos_eq (/ _)) by lra. pose proof (Rabs_pos (B2R x - B2R mu)). nra.
Qed.
Lemma p_size p : prob p -> 0 < B2R p <= 1 - / 9007199254740992.
Proof. intros [Fp Rp]. pose proof (below_1 p Fp ltac:(lra)) as Q. change (bpow radix2 (-53)) with (/ 9007199254740992) in Q. lra. Qed.
Lemma ln2_1 : ln 2 <= 1. Proof. rewrite <- (ln_exp 1). apply ln_mono'; [lra|]. pose proof (exp_ineq1_le 1). lra. Qed.
Lemma ln_1m p : prob p -> 0 <= - ln (1 - B2R p) <= 53.
Proof.
  intros O. pose proof (p_size p O) as S. pose proof ln2_1. assert (B1 : bpow radix2 (-53) <= 1 - B2R p) by (change (bpow radix2 (-53)) with (/ 9007199254740992); lra). apply ln_mono' in B1; [|apply bpow_gt_0].
  rewrite bpow_exp in B1. cbn [radix_val radix2] in B1. rewrite ln_exp in B1. assert (B2 : 1 - B2R p <= 1) by lra. apply ln_mono' in B2; [|lra]. rewrite ln_1 in B2. lra.
Qed.

(** *** normal *)
Lemma above_m1 x : finite x -> -1 < B2R x -> -1 + / 9007199254740992 <= B2R x.
Proof.
  intros Fx H. assert (Fo : finite (Bopp x)) by (unfold finite; now rewrite is_finite_Bopp). pose proof (below_1 (Bopp x) Fo) as Q. rewrite B2R_Bopp in Q. change (bpow radix2 (-53)) with (/ 9007199254740992) in Q. specialize (Q ltac:(lra)). lra.
Qed.
Lemma exact2_low p : prob p -> B2R (bsub (bmul (bofZ 2) p) (bofZ 1)) = 2 * B2R p - 1 -> -1 + / 9007199254740992 <= 2 * B2R p - 1.
Proof. intros O H. rewrite <- H. apply above_m1; [now apply erfarg_fin|]. destruct O. lra. Qed.
Lemma exacth_low p : prob p -> B2R (bsub p (blit (1#2))) = B2R p - / 2 -> / 18014398509481984 <= B2R p.
Proof.
  intros O H. destruct (Rlt_dec (B2R p) (/ 4)) as [L|L]; [|lra]. pose proof O as [Fp Rp]. pose proof (half_fin p O) as Fh. pose proof huge_1. destruct (dbl_exact _ Fh) as [F2 R2]; [apply Rabs_le; rewrite H; lra|].
  pose proof (above_m1 _ F2 ltac:(rewrite R2, H; lra)) as Q. rewrite R2, H in Q. lra.
Qed.
Lemma norm_q p mu sigma : prob p -> B2R (bsub (bmul (bofZ 2) p) (bofZ 1)) = 2 * B2R p - 1 -> usual mu sigma -> exists q, norm_cdf (B2R mu) (B2R sigma) q = B2R p /\ Rabs (q - B2R mu) <= 9 * B2R sigma.
Proof.
  intros O Hp U. destruct (usual_bounds _ _ U) as (_ & [_ Ps] & _). pose proof (p_size p O) as S. pose proof (exact2_low p O Hp) as S'. destruct (erfR_surj (2 * B2R p - 1)) as (x & Hx); [lra|].
  assert (X1 : x <= 63 / 10) by (apply (erf_size x _ Hx); lra).
  assert (X2 : - x <= 63 / 10) by (apply (erf_size (- x) (- (2 * B2R p - 1))); [now rewrite erfR_odd, Hx|lra]).
  pose proof sqrt2_pos as Q. pose proof sqrt2_rng as R2. exists (B2R mu + R_sqrt.sqrt 2 * B2R sigma * x). split.
  - unfold norm_cdf. replace ((B2R mu + R_sqrt.sqrt 2 * B2R sigma * x - B2R mu) / (R_sqrt.sqrt 2 * B2R sigma)) with x by (field; split; lra). rewrite Hx. lra.
  - replace (B2R mu + R_sqrt.sqrt 2 * B2R sigma * x - B2R mu) with (B2R sigma * (R_sqrt.sqrt 2 * x)) by ring. rewrite Rabs_mult, (Rabs_pos_eq (B2R sigma)) by lra.
    assert (Rabs (R_sqrt.sqrt 2 * x) <= 9) by (apply Rabs_le; nra). nra.
Qed.
Ltac setup U O := destruct (usual_bounds _ _ U) as (Fm & Ps & I & Hm & Hs & Hh & Ho);
  pose proof big_pos as Bp; pose proof big_1 as B1; pose proof tiny_big as TB; pose proof tiny_pos as T0; pose proof tiny_big2 as TB2; pose proof e_pos as (E1 & E2 & E3); pose proof He as [_ Hb]; pose proof Ps as [_ Ps']; pose proof ulp1_val as U1;
  revert B1; change (IZR (2 ^ 100)) with 1267650600228229401496703205376; intros B1; pose proof (p_size _ O) as S0; pose proof (ln_1m _ O) as S1; pose proof (tiny_mul _ (conj (Rlt_le _ _ Ps') (proj2 Hs))) as TM; pose proof (tiny_mul _ (conj (Rlt_le _ _ (proj1 I)) (proj2 I))) as TI; pose proof (tiny_mul 1 ltac:(lra)) as T1; rewrite Rmult_1_r in T1.

Lemma norm_trip64 p mu sigma : const_acc e (t_SQRT_2 F) (R_sqrt.sqrt 2) -> erf_acc F e -> erf_inv_acc F e -> prob p -> B2R (bsub (bmul (bofZ 2) p) (bofZ 1)) = 2 * B2R p - 1 -> usual mu sigma ->
  within (10 * e + 5 * e * offset mu sigma) (pnorm (N:=NB) (qnorm (N:=NB) p mu sigma) mu sigma false) (B2R p).
Proof.
  intros C E EI O Hp U. destruct (norm_q p mu sigma O Hp U) as (q & Eq & Hq). setup U O. pose proof (Rabs_pos (q - B2R mu)). pose proof (Rabs_pos (B2R mu)).
  destruct (qnorm_acc F e He p mu sigma q C EI O Hp Fm Ps Hh Eq ltac:(lra)) as [Fx Dx]. set (x := qnorm (N:=NB) p mu sigma) in *.
  assert (TS : (2 + 2 * B2R sigma) * tiny <= 1) by (replace ((2 + 2 * B2R sigma) * tiny) with (2 * tiny + 2 * (tiny * B2R sigma)) by ring; lra).
  pose proof (e_mul (Rabs (B2R mu)) (8 * e) ltac:(lra) ltac:(lra)) as M1. pose proof (e_mul (Rabs (q - B2R mu)) (8 * e) ltac:(lra) ltac:(lra)) as M2.
  assert (R : Rabs (B2R x - B2R mu) <= huge /\ Rabs ((B2R x - B2R mu) / B2R sigma) <= huge).
  { apply (reach_ok mu sigma q); auto; [change (IZR (2 ^ 60)) with 1152921504606846976; nra|]. eapply Rle_trans; [exact Dx|]. lra. }
  pose proof (pnorm_acc F e He x mu sigma C E Fx Fm Ps (proj1 R) (proj2 R)) as W.
  pose proof (norm_trip (B2R mu) (B2R sigma) q (B2R x) (8 * e) (8 * e * Rabs (B2R mu) + (2 + 2 * B2R sigma) * tiny) Ps' ltac:(lra) ltac:(nra) ltac:(lra)) as T.
  rewrite Eq in T. eapply within_le; [exact (within_tri _ _ _ _ _ W T)|].
  assert (S : (8 * e * Rabs (B2R mu) + (2 + 2 * B2R sigma) * tiny) / B2R sigma <= 8 * e * offset mu sigma + ulp1 / 100000).
  { unfold offset, Rdiv. rewrite Rmult_plus_distr_r. replace (8 * e * Rabs (B2R mu) * / B2R sigma) with (8 * e * (Rabs (B2R mu) * / B2R sigma)) by ring.
    apply Rplus_le_compat_l. replace ((2 + 2 * B2R sigma) * tiny * / B2R sigma) with (2 * (tiny * / B2R sigma) + 2 * tiny) by (field; lra). pose proof (tiny_mul _ (conj (Rlt_le _ _ (proj1 I)) (proj2 I))); pose proof (tiny_mul 1 ltac:(lra)). lra. }
  assert (0 <= e * offset mu sigma) by (apply Rmult_le_pos; lra). lra.
Qed.

(** *** logistic *)
Lemma logis_z p mu sigma : prob p -> / huge <= B2R p -> usual mu sigma -> Rabs (logis_qf (B2R mu) (B2R sigma) (B2R p) - B2R mu) <= 2000 * B2R sigma.
Proof.
  intros O Hp U. setup U O. unfold logis_qf. replace (B2R mu + B2R sigma * ln (B2R p / (1 - B2R p)) - B2R mu) with (B2R sigma * ln (B2R p / (1 - B2R p))) by ring.
  rewrite Rabs_mult, (Rabs_pos_eq (B2R sigma)) by lra. unfold Rdiv. rewrite ln_mult by (try apply Rinv_0_lt_compat; lra). rewrite ln_Rinv by lra. pose proof ln2_1 as L2.
  assert (A : - 1000 <= ln (B2R p)). { apply ln_mono' in Hp; [|apply Rinv_0_lt_compat, huge_pos]. rewrite ln_Rinv in Hp by apply huge_pos. unfold huge in Hp. rewrite bpow_exp in Hp. cbn [radix_val radix2] in Hp. rewrite ln_exp in Hp. lra. }
  assert (B : ln (B2R p) <= 0). { rewrite <- ln_1. apply ln_mono'; lra. }
  assert (Rabs (ln (B2R p) + - ln (1 - B2R p)) <= 2000) by (apply Rabs_le; lra). nra.
Qed.
Lemma logis_trip64 p mu sigma : log_acc F e -> tanh_acc F e -> prob p -> / huge <= B2R p -> usual mu sigma ->
  within (10 * e + 2 * e * offset mu sigma) (plogis (N:=NB) (qlogis (N:=NB) p mu sigma) mu sigma false) (B2R p).
Proof.
  intros HL HT O Hp U. pose proof (logis_z p mu sigma O Hp U) as Hq. setup U O. set (q := logis_qf (B2R mu) (B2R sigma) (B2R p)) in *.
  assert (Eq : logis_cdf (B2R mu) (B2R sigma) q = B2R p) by (apply logis_cdf_qf; lra). pose proof (Rabs_pos (q - B2R mu)). pose proof (Rabs_pos (B2R mu)).
  destruct (qlogis_acc F e He p mu sigma q HL O Hp Fm Ps Eq ltac:(lra)) as [Fx Dx]. set (x := qlogis (N:=NB) p mu sigma) in *.
  assert (R : Rabs (B2R x - B2R mu) <= huge /\ Rabs ((B2R x - B2R mu) / B2R sigma) <= huge).
  { apply (reach_ok mu sigma q); auto; [change (IZR (2 ^ 60)) with 1152921504606846976; nra|]. nra. }
  pose proof (plogis_acc F e He x mu sigma HT Fx Fm Ps ltac:(lra) (proj1 R) (proj2 R)) as W.
  pose proof (logis_trip (B2R mu) (B2R sigma) q (B2R x) (5 * e) (5 * e * (Rabs (B2R mu) + B2R sigma) + 2 * tiny) Ps' ltac:(lra) ltac:(nra) ltac:(lra)) as T.
  rewrite Eq in T. eapply within_le; [exact (within_tri _ _ _ _ _ W T)|].
  assert (S : (5 * e * (Rabs (B2R mu) + B2R sigma) + 2 * tiny) / B2R sigma <= 5 * e * offset mu sigma + 5 * e + ulp1 / 100000).
  { unfold offset, Rdiv. replace ((5 * e * (Rabs (B2R mu) + B2R sigma) + 2 * tiny) * / B2R sigma) with (5 * e * (Rabs (B2R mu) * / B2R sigma) + 5 * e + 2 * (tiny * / B2R sigma)) by (field; lra). lra. }
  assert (0 <= e * offset mu sigma) by (apply Rmult_le_pos; lra). lra.
Qed.
(** *** Laplace *)
Lemma laplace_z p mu sigma : prob p -> B2R (bsub p (blit (1#2))) = B2R p - / 2 -> usual mu sigma -> Rabs (laplace_qf (B2R mu) (B2R sigma) (B2R p) - B2R mu) <= 100 * B2R sigma.
Proof.
  intros O Hp' U. pose proof (exacth_low p O Hp') as Hp. setup U O. pose proof ln2_1 as L2. destruct (Rle_dec (B2R p) (1 / 2)) as [C|C].
  - rewrite laplace_qf_low by lra. replace (B2R mu + B2R sigma * ln (2 * B2R p) - B2R mu) with (B2R sigma * ln (2 * B2R p)) by ring. rewrite Rabs_mult, (Rabs_pos_eq (B2R sigma)) by lra.
    assert (A : ln (/ bpow radix2 53) <= ln (2 * B2R p)) by (change (bpow radix2 53) with 9007199254740992; apply ln_mono'; lra). rewrite ln_Rinv, bpow_exp in A by apply bpow_gt_0. cbn [radix_val radix2] in A. rewrite ln_exp in A. assert (B : ln (2 * B2R p) <= ln 1) by (apply ln_mono'; lra). rewrite ln_1 in B. assert (Rabs (ln (2 * B2R p)) <= 100) by (apply Rabs_le; lra). nra.
  - rewrite laplace_qf_high by lra. replace (B2R mu - B2R sigma * ln (2 * (1 - B2R p)) - B2R mu) with (B2R sigma * - ln (2 * (1 - B2R p))) by ring. rewrite Rabs_mult, (Rabs_pos_eq (B2R sigma)) by lra.
    rewrite ln_mult by lra. assert (0 <= ln 2) by (rewrite <- ln_1; apply ln_mono'; lra). assert (Rabs (- (ln 2 + ln (1 - B2R p))) <= 100) by (apply Rabs_le; lra). nra.
Qed.
Lemma laplace_trip64 p mu sigma : log_acc F e -> exp_acc F e -> prob p -> B2R (bsub p (blit (1#2))) = B2R p - / 2 -> usual mu sigma ->
  within (10 * e + 3 * e * offset mu sigma) (plaplace (N:=NB) (qlaplace (N:=NB) p mu sigma) mu sigma false) (B2R p).
Proof.
  intros HL HT O Hp U. pose proof (laplace_z p mu sigma O Hp U) as Hq. setup U O. set (q := laplace_qf (B2R mu) (B2R sigma) (B2R p)) in *.
  assert (Eq : laplace_cdf (B2R mu) (B2R sigma) q = B2R p) by (apply laplace_cdf_qf; lra). pose proof (Rabs_pos (q - B2R mu)). pose proof (Rabs_pos (B2R mu)).
  destruct (qlaplace_acc F e He p mu sigma q HL O Hp Fm Ps Eq ltac:(lra)) as [Fx Dx]. set (x := qlaplace (N:=NB) p mu sigma) in *.
  assert (TS : (2 + 2 * B2R sigma) * tiny <= 1) by (replace ((2 + 2 * B2R sigma) * tiny) with (2 * tiny + 2 * (tiny * B2R sigma)) by ring; lra).
  pose proof (e_mul (Rabs (B2R mu)) (5 * e) ltac:(lra) ltac:(lra)) as M1. pose proof (e_mul (Rabs (q - B2R mu)) (5 * e) ltac:(lra) ltac:(lra)) as M2.
  assert (R : Rabs (B2R x - B2R mu) <= huge /\ Rabs ((B2R x - B2R mu) / B2R sigma) <= huge).
  { apply (reach_ok mu sigma q); auto; [change (IZR (2 ^ 60)) with 1152921504606846976; nra|]. eapply Rle_trans; [exact Dx|]. lra. }
  pose proof (plaplace_acc F e He x mu sigma HT Fx Fm Ps (proj1 R) (proj2 R)) as W.
  pose proof (laplace_trip (B2R mu) (B2R sigma) q (B2R x) (5 * e) (5 * e * Rabs (B2R mu) + (2 + 2 * B2R sigma) * tiny) Ps' ltac:(lra) ltac:(nra) ltac:(lra)) as T.
  rewrite Eq in T. eapply within_le; [exact (within_tri _ _ _ _ _ W T)|].
  assert (S : (5 * e * Rabs (B2R mu) + (2 + 2 * B2R sigma) * tiny) / B2R sigma <= 5 * e * offset mu sigma + ulp1 / 100000).
  { unfold offset, Rdiv. replace ((5 * e * Rabs (B2R mu) + (2 + 2 * B2R sigma) * tiny) * / B2R sigma) with (5 * e * (Rabs (B2R mu) * / B2R sigma) + (2 * (tiny * / B2R sigma) + 2 * tiny)) by (field; lra). lra. }
  assert (0 <= e * offset mu sigma) by (apply Rmult_le_pos; lra). lra.
Qed.
(** *** Cauchy *)
Lemma cauchy_trip64 p mu sigma : tan_acc F e -> atan_acc F e -> const_acc e (t_PI F) PI -> prob p -> usual mu sigma -> 200 * e * Rabs (cauchy_qf 0 1 (B2R p)) <= 1 ->
  within (18 * e + 2 * e * offset mu sigma) (pcauchy (N:=NB) (qcauchy (N:=NB) p mu sigma) mu sigma false) (B2R p).
Proof.
  intros HT HA C O U HZ. setup U O. set (q := cauchy_qf (B2R mu) (B2R sigma) (B2R p)).
  assert (Ez : (q - B2R mu) / B2R sigma = cauchy_qf 0 1 (B2R p)) by (unfold q, cauchy_qf; field; lra). set (z := cauchy_qf 0 1 (B2R p)) in *.
  assert (Eq : cauchy_cdf (B2R mu) (B2R sigma) q = B2R p) by (apply cauchy_cdf_qf; lra). pose proof (Rabs_pos (q - B2R mu)). pose proof (Rabs_pos (B2R mu)). pose proof (Rabs_pos z).
  assert (Zq : Rabs (q - B2R mu) = B2R sigma * Rabs z). { rewrite <- Ez. unfold Rdiv. rewrite Rabs_mult, Rabs_inv, (Rabs_pos_eq (B2R sigma)) by lra. field. lra. }
  assert (Zb : Rabs z <= 1000000000000000000) by (rewrite U1 in *; nra).
  assert (Zs : B2R sigma * Rabs z <= big * 1000000000000000000) by (apply Rmult_le_compat; lra).
  destruct (qcauchy_acc F e He p mu sigma q HT C O Fm Ps Eq ltac:(rewrite <- Rabs_div || idtac; rewrite Zq; replace (B2R sigma * Rabs z / B2R sigma) with (Rabs z) by (field; lra); lra) ltac:(rewrite Zq; lra)) as [Fx Dx]. set (x := qcauchy (N:=NB) p mu sigma) in *. rewrite Ez in Dx.
  assert (Z2 : e * z ^ 2 <= Rabs z / 200) by (rewrite <- (pow2_abs z); replace (e * Rabs z ^ 2) with (e * Rabs z * Rabs z) by ring; assert (e * Rabs z * Rabs z <= / 200 * Rabs z) by (apply Rmult_le_compat_r; lra); lra).
  assert (R : Rabs (B2R x - B2R mu) <= huge /\ Rabs ((B2R x - B2R mu) / B2R sigma) <= huge).
  { apply (reach_ok mu sigma q); auto; [change (IZR (2 ^ 60)) with 1152921504606846976; nra|]. rewrite Zq.
    assert (16 * e * B2R sigma * (1 + z ^ 2) <= B2R sigma * Rabs z + B2R sigma / 2). { replace (16 * e * B2R sigma * (1 + z ^ 2)) with (B2R sigma * (16 * e + 16 * (e * z ^ 2))) by ring. nra. } nra. }
  pose proof (pcauchy_acc F e He x mu sigma HA C Fx Fm Ps (proj1 R) (proj2 R)) as W.
  pose proof (cauchy_trip (B2R mu) (B2R sigma) q (B2R x) (16 * e) (3 * e * Rabs (B2R mu) + 2 * tiny) Ps' ltac:(lra) ltac:(nra) ltac:(rewrite Ez; lra) ltac:(rewrite Ez; lra)) as T.
  rewrite Eq in T. eapply within_le; [exact (within_tri _ _ _ _ _ W T)|].
  assert (S : (3 * e * Rabs (B2R mu) + 2 * tiny) / B2R sigma <= 3 * e * offset mu sigma + ulp1 / 100000).
  { unfold offset, Rdiv. replace ((3 * e * Rabs (B2R mu) + 2 * tiny) * / B2R sigma) with (3 * e * (Rabs (B2R mu) * / B2R sigma) + 2 * (tiny * / B2R sigma)) by (field; lra). lra. }
  assert (0 <= e * offset mu sigma) by (apply Rmult_le_pos; lra). lra.
Qed.
(** *** exponential *)
Lemma exp_trip64 p rate : log_acc F e -> expm1_acc F e -> prob p -> bpos rate -> / big <= B2R rate <= big -> within (8 * e) (pexp (N:=NB) (qexp (N:=NB) p rate) rate false) (B2R p).
Proof.
  intros HL HE O Pr Hr. assert (U : usual (bofZ 0) rate). { destruct (bofZ_R 0 ltac:(sm)) as [A0 F0]. pose proof big_pos. repeat split; auto; try apply Pr; try lra. rewrite A0, Rabs_R0. lra. }
  setup U O. set (r := B2R rate) in *. set (q := exp_qf r (B2R p)). assert (Eq : exp_cdf r q = B2R p) by (apply exp_cdf_qf; lra).
  assert (Q0 : 0 < q) by (apply exp_qf_pos; lra). assert (Rq : r * q = - ln (1 - B2R p)) by (unfold q, exp_qf; field; lra).
  assert (Qb : q <= 53 * big). { replace q with (r * q * / r) by (field; lra). nra. }
  assert (Rh : 1 <= r * huge). { apply Rle_trans with (/ big * (1267650600228229401496703205376 * big)); [|apply Rmult_le_compat; try lra; pose proof (Rinv_0_lt_compat big); nra]. replace (/ big * (1267650600228229401496703205376 * big)) with 1267650600228229401496703205376 by (field; lra). lra. }
  destruct (qexp_acc F e He p rate q HL O Pr Eq ltac:(lra) Rh) as [Fx Dx]. set (x := qexp (N:=NB) p rate) in *. fold r in Dx.
  assert (TR : r * tiny <= ulp1 / 1000000) by (rewrite Rmult_comm; exact TM). pose proof (e_mul (r * q) (3 * e) ltac:(nra) ltac:(lra)) as M1. assert (RB : r * (2 * e / r + tiny) = 2 * e + r * tiny) by (field; lra).
  assert (Bn : 0 <= 2 * e / r + tiny) by (pose proof (Rdiv_lt_0_compat (2 * e) r); lra).
  destruct (Rle_dec (B2R x) 0) as [N|N].
  - (* the computed quantile is not positive: zero is returned *)
    assert (E0 : pexp (N:=NB) x rate false = bofZ 0). 
    { unfold pexp, exp_sanity2, exp_sanity1. rewrite (nan_nn F x), (nan_nn F rate) by (auto; apply nn_fin; auto; apply Pr).
      change (ltb rate (ofZ 0)) with (Bltb rate (bofZ 0)). rewrite lt0_f by (first [exact (proj1 Pr) | exact (Rlt_le _ _ (proj2 Pr))]). cbn [negb andb log_if].
      unfold pexp_compute. rewrite posinf_fin by (first [exact Fx | exact (proj1 Pr)]). change (leb x (ofZ 0)) with (Bleb x (bofZ 0)). destruct (bofZ_R 0 ltac:(sm)) as [Z0 Zf].
      rewrite (proj2 (bleb_R x (bofZ 0) Fx Zf)) by lra. reflexivity. }
    rewrite E0. destruct (bofZ_R 0 ltac:(sm)) as [A0 F0]. split; [exact F0|]. rewrite A0. rewrite Rabs_left1 by lra.
    assert (K : q <= 3 * e * q + 2 * e / r + tiny). { pose proof (Rabs_left1 (B2R x - q) ltac:(lra)). lra. }
    assert (K2 : r * q <= 3 * e * (r * q) + (2 * e + r * tiny)). { rewrite <- RB. nra. }
    assert (B2R p <= r * q). { rewrite <- Eq. unfold exp_cdf. pose proof (exp_ineq1_le (- r * q)). lra. } assert (3 * e * (r * q) <= e). { assert (r * q <= / 4) by (pose proof (e_mul (r * q) (6 * e) ltac:(nra) ltac:(lra)); lra). replace (3 * e * (r * q)) with (e * (3 * (r * q))) by ring. rewrite <- (Rmult_1_r e) at 2. apply Rmult_le_compat_l; lra. } lra.
  - assert (Px : 0 < B2R x) by lra.
    assert (Rx : r * B2R x <= huge). { assert (B2R x <= 2 * q + 2 * e / r + tiny) by (pose proof (Rle_abs (B2R x - q)); pose proof (e_mul q (3 * e) ltac:(lra) ltac:(lra)); lra). assert (r * B2R x <= 2 * (r * q) + (2 * e + r * tiny)) by (rewrite <- RB; nra). pose proof huge_1. lra. }
    pose proof (near_within _ _ _ _ (pexp_acc F e He x rate HE Fx Px Pr Rx) ltac:(lra)) as W. fold r in W.
    pose proof (exp_trip r q (B2R x) (3 * e) (2 * e / r + tiny) ltac:(lra) ltac:(lra) ltac:(lra) ltac:(lra) Bn ltac:(rewrite RB; lra) ltac:(lra)) as T. rewrite Eq, RB in T.
    assert (V : Rabs (exp_cdf r (B2R x)) <= 1). { rewrite Rabs_pos_eq; unfold exp_cdf; pose proof (exp_pos (- r * B2R x)); [lra|]. pose proof (exp_np (- r * B2R x) ltac:(nra)). lra. }
    eapply within_le; [exact (within_tri _ _ _ _ _ W T)|]. pose proof (Rabs_pos (exp_cdf r (B2R x))). pose proof (e_mul (2 * e) _ ltac:(lra) (conj H V)). lra.
Qed.
End Trip.
