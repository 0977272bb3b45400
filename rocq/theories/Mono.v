(** Range and monotonicity of the CDFs, the interior hypothesis discharged; the
    integer-argument families; and the counterexamples near zero. *)
From Coq Require Import Reals ZArith QArith Bool Lra Lia.
From Coquelicot Require Import Coquelicot.
From Verif Require Import Num Sanity ER ERTac Prob Dens Quant Spec SpecER ClosedElem RealElem
  LogForm Support Elem Norm GammaFn BetaFn NormR SpecSF FamR FamG FamB Discrete Witness WitnessSF.
Local Open Scope R_scope.

Definition unit_valued_Z (F : Z -> ER) : Prop := forall x, in_unit (F x).
Definition monotone_Z (F : Z -> ER) : Prop := forall x y, (x <= y)%Z -> Ele (F x) (F y).

Section S.
Variable S : SF.
Notation NS := (ER_Num S).
Notation eps := (sf_eps S).

Lemma lgamma_int : lgamma_spec S -> lgamma_int_ok S.
Proof.
  intros H n. rewrite H by (pose proof (pos_INR n); lra). now rewrite Gam_fact.
Qed.
Lemma incgamma_int : incgamma_spec S -> incgamma_int_ok S.
Proof.
  intros H n r Hr. rewrite H by (auto; pose proof (pos_INR n); lra). now rewrite PG_int.
Qed.

Lemma pbern_unit p : 0 <= p <= 1 -> unit_valued_Z (fun x => pbern (N:=NS) x (Fin p) false).
Proof.
  intros Hp x. rewrite pbern_val by auto. eexists. split; [reflexivity|].
  unfold bern_cdf. destruct (x <? 0)%Z, (x <? 1)%Z; lra.
Qed.
Lemma pbern_mono p : 0 <= p <= 1 -> monotone_Z (fun x => pbern (N:=NS) x (Fin p) false).
Proof.
  intros Hp x y H. rewrite !pbern_val by auto. apply Ele_Fin. unfold bern_cdf.
  destruct (Z.ltb_spec x 0), (Z.ltb_spec x 1), (Z.ltb_spec y 0), (Z.ltb_spec y 1); try lia; lra.
Qed.
Lemma pradem_unit p : 0 <= p <= 1 -> unit_valued_Z (fun x => pradem (N:=NS) x (Fin p) false).
Proof.
  intros Hp x. rewrite pradem_val by auto. eexists. split; [reflexivity|].
  unfold radem_cdf. destruct (x <? -1)%Z, (x <? 1)%Z; lra.
Qed.
Lemma pradem_mono p : 0 <= p <= 1 -> monotone_Z (fun x => pradem (N:=NS) x (Fin p) false).
Proof.
  intros Hp x y H. rewrite !pradem_val by auto. apply Ele_Fin. unfold radem_cdf.
  destruct (Z.ltb_spec x (-1)), (Z.ltb_spec x 1), (Z.ltb_spec y (-1)), (Z.ltb_spec y 1); try lia; lra.
Qed.
Lemma sum_mono (f : nat -> R) m n : (forall k, 0 <= f k) -> (m <= n)%nat -> sum_f_R0 f m <= sum_f_R0 f n.
Proof. intros Hf H. induction H; [lra|]. cbn. specialize (Hf (Datatypes.S m0)). lra. Qed.
Lemma sum_nonneg (f : nat -> R) n : (forall k, 0 <= f k) -> 0 <= sum_f_R0 f n.
Proof. intros Hf. induction n; cbn; [apply Hf|]. specialize (Hf (Datatypes.S n)). lra. Qed.
Lemma pbinom_neg x n p : (x < 0)%Z -> (0 <= n)%Z -> 0 <= p <= 1 ->
  pbinom (N:=NS) x n (Fin p) false = Fin 0.
Proof. intros. rewrite pbinom_below; auto. Qed.
Lemma pbinom_unit n p : (0 <= n)%Z -> 0 <= p <= 1 -> unit_valued_Z (fun x => pbinom (N:=NS) x n (Fin p) false).
Proof.
  intros Hn Hp x. destruct (Z.ltb_spec x 0).
  - rewrite pbinom_neg by auto. exists 0. split; auto. lra.
  - rewrite <- (Z2Nat.id x), <- (Z2Nat.id n) by auto. rewrite pbinom_val by auto. eexists. split; [reflexivity|].
    assert (Hf := fun k => binom_pmf_nonneg (Z.to_nat n) p k Hp). split; [now apply sum_nonneg|].
    rewrite <- (binom_sum_ge (Z.to_nat n) p (Nat.max (Z.to_nat x) (Z.to_nat n))) by lia.
    apply sum_mono; auto. lia.
Qed.
Lemma pbinom_mono n p : (0 <= n)%Z -> 0 <= p <= 1 -> monotone_Z (fun x => pbinom (N:=NS) x n (Fin p) false).
Proof.
  intros Hn Hp x y H. assert (Hf := fun k => binom_pmf_nonneg (Z.to_nat n) p k Hp).
  destruct (Z.ltb_spec x 0).
  - rewrite (pbinom_neg x) by auto. destruct (pbinom_unit n p Hn Hp y) as (r & -> & Hr). apply Ele_Fin. lra.
  - rewrite <- (Z2Nat.id x), <- (Z2Nat.id y), <- (Z2Nat.id n) by lia.
    rewrite !pbinom_val by auto. apply Ele_Fin. apply sum_mono; auto. lia.
Qed.
Lemma ppois_unit r : incgamma_spec S -> 0 <= r -> unit_valued_Z (fun x => ppois (N:=NS) x (Fin r) false).
Proof.
  intros HI Hr x. apply incgamma_int in HI. destruct (Z.ltb_spec x 0).
  - rewrite ppois_below by auto. exists 0. split; auto. lra.
  - rewrite <- (Z2Nat.id x) by auto. rewrite ppois_val by auto. eexists. split; [reflexivity|].
    assert (Hf := fun k => pois_pmf_nonneg r k Hr). split; [now apply sum_nonneg|].
    apply (sum_incr (pois_pmf r)); auto. apply pois_sum_to_1.
Qed.
Lemma ppois_mono r : incgamma_spec S -> 0 <= r -> monotone_Z (fun x => ppois (N:=NS) x (Fin r) false).
Proof.
  intros HI Hr x y H. assert (Hf := fun k => pois_pmf_nonneg r k Hr). destruct (Z.ltb_spec x 0).
  - rewrite (ppois_below S x) by auto. destruct (ppois_unit r HI Hr y) as (q & -> & Hq). apply Ele_Fin. lra.
  - apply incgamma_int in HI. rewrite <- (Z2Nat.id x), <- (Z2Nat.id y) by lia.
    rewrite !ppois_val by auto. apply Ele_Fin. apply sum_mono; auto. lia.
Qed.

(** p*(q*(p)) = p for every p at or above the CDF value at epsilon *)
Lemma weibull_cdf_slt k th x y : 0 < k -> 0 < th -> 0 < x -> x < y -> weibull_cdf k th x < weibull_cdf k th y.
Proof.
  intros. destruct (weibull_cdf_mono k th x y) as [L|E]; try lra.
  apply (f_equal (weibull_qf k th)) in E. rewrite !weibull_qf_cdf in E by lra. lra.
Qed.
Lemma q_ge_eps (G : R -> R) q p : G q = p -> G eps <= p -> 0 < q -> 0 < eps ->
  (forall x y, 0 < x -> x < y -> G x < G y) -> eps <= q.
Proof. intros E H Hq He M. destruct (Rle_lt_dec eps q) as [L|L]; auto. apply M in L; auto. lra. Qed.
Lemma pweibull_inv k th p : 0 < eps -> eps <= k -> eps <= th -> weibull_cdf k th eps <= p < 1 ->
  pweibull (N:=NS) (qweibull (N:=NS) (Fin p) (Fin k) (Fin th)) (Fin k) (Fin th) false = Fin p.
Proof.
  intros He Hk Ht Hp. pose proof (weibull_cdf_range k th eps) as R.
  apply pweibull_qweibull; auto; [lra|].
  rewrite qweibull_val by (auto; lra). apply Ele_Fin.
  apply (q_ge_eps (weibull_cdf k th) _ p); auto.
  - apply weibull_cdf_qf; lra.
  - lra.
  - apply weibull_qf_pos. lra.
  - intros. apply weibull_cdf_slt; lra.
Qed.
Lemma plnorm_inv mu s p : erf_spec S -> erf_inv_spec S -> 0 < eps -> 0 < s -> lnorm_cdf mu s eps <= p < 1 ->
  plnorm (N:=NS) (qlnorm (N:=NS) (Fin p) (Fin mu) (Fin s)) (Fin mu) (Fin s) false = Fin p.
Proof.
  intros HE HV He Hs Hp. assert (P : 0 < lnorm_cdf mu s eps) by (apply norm_cdf_range; auto).
  apply plnorm_qlnorm; auto; [lra|].
  destruct (qlnorm_val S p mu s) as (q & -> & Hq0 & Hq); auto; [lra|]. apply Ele_Fin.
  apply (q_ge_eps (lnorm_cdf mu s) _ p); auto; [lra|].
  intros. unfold lnorm_cdf. apply norm_cdf_smono; auto. now apply ln_increasing.
Qed.
Lemma pgamma_inv k th p : incgamma_spec S -> incgamma_inv_spec S -> 0 < eps -> 0 < k -> eps <= th ->
  gamma_cdf k th eps <= p < 1 ->
  pgamma (N:=NS) (qgamma (N:=NS) (Fin p) (Fin k) (Fin th)) (Fin k) (Fin th) false = Fin p.
Proof.
  intros HE HV He Hk Ht Hp. assert (P : 0 < gamma_cdf k th eps < 1) by (apply gamma_cdf_pos; lra).
  apply pgamma_qgamma; auto; [lra|].
  destruct (qgamma_val S p k th) as (q & -> & Hq0 & Hq); auto; [lra|]. apply Ele_Fin.
  apply (q_ge_eps (gamma_cdf k th) _ p); auto; [lra|]. intros. apply gamma_cdf_slt; lra.
Qed.
Lemma pchisq_inv n p : incgamma_spec S -> incgamma_inv_spec S -> 0 < eps -> 0 < n ->
  chisq_cdf n eps <= p < 1 ->
  pchisq (N:=NS) (qchisq (N:=NS) (Fin p) (Fin n)) (Fin n) false = Fin p.
Proof.
  intros HE HV He Hn Hp. assert (EQ : forall x, chisq_cdf n x = gamma_cdf (n / 2) 2 x) by reflexivity. rewrite EQ in Hp.
  assert (P : 0 < gamma_cdf (n / 2) 2 eps < 1) by (apply gamma_cdf_pos; lra).
  apply pchisq_qchisq; auto; [lra|].
  destruct (qchisq_val S p n) as (q & -> & Hq0 & Hq); auto; [lra|]. apply Ele_Fin.
  apply (q_ge_eps (gamma_cdf (n / 2) 2) _ p); auto; [lra|]. intros. apply gamma_cdf_slt; lra.
Qed.
Lemma pf_inv d1 d2 p : incbeta_spec S -> incbeta_inv_spec S -> 0 < eps -> eps <= d1 -> eps <= d2 ->
  f_cdf d1 d2 eps <= p < 1 ->
  pf (N:=NS) (qf (N:=NS) (Fin p) (Fin d1) (Fin d2)) (Fin d1) (Fin d2) false = Fin p.
Proof.
  intros HE HV He H1 H2 Hp. assert (P : 0 < f_cdf d1 d2 eps < 1) by (apply f_cdf_pos; lra).
  apply pf_qf; auto; [lra|].
  destruct (qf_val S p d1 d2) as (q & -> & Hq0 & Hq); auto; [lra|]. apply Ele_Fin.
  apply (q_ge_eps (f_cdf d1 d2) _ p); auto; [lra|]. intros. apply f_cdf_slt; lra.
Qed.
Lemma pinvgamma_inv a b p : incgamma_spec S -> incgamma_inv_spec S -> 0 < eps -> 0 < a -> 0 < b <= / eps ->
  0 < p <= invgamma_cdf a b (/ eps) ->
  pinvgamma (N:=NS) (qinvgamma (N:=NS) (Fin p) (Fin a) (Fin b)) (Fin a) (Fin b) false = Fin p.
Proof.
  intros HE HV He Ha Hb Hp. assert (Hie : 0 < / eps) by now apply Rinv_0_lt_compat.
  assert (P : 0 < invgamma_cdf a b (/ eps) < 1) by (apply invgamma_cdf_pos; lra).
  apply pinvgamma_qinvgamma; auto; [lra|].
  destruct (qinvgamma_val S p a b) as (q & -> & Hq0 & Hq); auto; try lra. apply Ele_Fin.
  destruct (Rle_lt_dec q (/ eps)) as [L|L]; auto. apply (invgamma_cdf_slt a b) in L; lra.
Qed.

(** below the CDF value at epsilon the round trip gives 0 instead of p *)
Lemma pweibull_inv_bad k th p : 0 < eps -> eps <= k -> eps <= th -> 0 < p < weibull_cdf k th eps ->
  pweibull (N:=NS) (qweibull (N:=NS) (Fin p) (Fin k) (Fin th)) (Fin k) (Fin th) false = Fin 0.
Proof.
  intros He Hk Ht Hp. pose proof (weibull_cdf_range k th eps) as R.
  rewrite qweibull_val by (auto; lra). rewrite pweibull_low; auto.
  destruct (Rlt_le_dec (weibull_qf k th p) eps) as [L|L]; auto. exfalso.
  pose proof (weibull_cdf_mono k th _ _ ltac:(lra) ltac:(lra) He L) as M.
  rewrite weibull_cdf_qf in M by lra. lra.
Qed.
Lemma qweibull_pweibull_bad k th x : 0 < eps -> eps <= k -> eps <= th -> 0 < x < eps ->
  qweibull (N:=NS) (pweibull (N:=NS) (Fin x) (Fin k) (Fin th) false) (Fin k) (Fin th) = Fin 0.
Proof.
  intros. rewrite pweibull_low by (auto; lra). unfold val, qweibull. un_cls. er_arith. rdecide. reflexivity.
Qed.
End S.

Lemma weibull_inv_refuted : exists (S : SF) k th p, 0 < sf_eps S /\ sf_eps S <= k /\ sf_eps S <= th /\ 0 < p < 1 /\
  pweibull (N:=ER_Num S) (qweibull (N:=ER_Num S) (Fin p) (Fin k) (Fin th)) (Fin k) (Fin th) false <> Fin p.
Proof.
  pose proof (weibull_cdf_range 1 1 (sf_eps SFR)) as R.
  exists SFR, 1, 1, (weibull_cdf 1 1 (sf_eps SFR) / 2). repeat split; try ex_sf; try lra.
  rewrite pweibull_inv_bad; [|ex_sf|ex_sf|ex_sf|lra].
  revert R. generalize (weibull_cdf 1 1 (sf_eps SFR)). intros w R E. injection E as E. lra.
Qed.
Lemma weibull_inv2_refuted : exists (S : SF) k th x, 0 < sf_eps S /\ sf_eps S <= k /\ sf_eps S <= th /\ 0 < x /\
  qweibull (N:=ER_Num S) (pweibull (N:=ER_Num S) (Fin x) (Fin k) (Fin th) false) (Fin k) (Fin th) <> Fin x.
Proof.
  exists SFR, 1, 1, (sf_eps SFR / 2). repeat split; try ex_sf.
  rewrite qweibull_pweibull_bad by ex_sf. intros [= E].
  change (sf_eps SFR) with (/ 4503599627370496) in E. lra.
Qed.
Lemma weibull_density_refuted : exists (S : SF) k th x, 0 < sf_eps S /\ sf_eps S <= k /\ sf_eps S <= th /\ 0 < x /\
  ~ density_of (fun y => pweibull (N:=ER_Num S) y (Fin k) (Fin th) false)
      (fun y => dweibull (N:=ER_Num S) y (Fin k) (Fin th) false) x.
Proof.
  exists SFR, 1, 1, (sf_eps SFR / 2). repeat split; try ex_sf. apply pweibull_density_bad; ex_sf.
Qed.
Lemma exp_weibull_refuted : exists (S : SF) r x, 0 < sf_eps S /\ 0 < r <= / sf_eps S /\ 0 < x /\
  pexp (N:=ER_Num S) (Fin x) (Fin r) false <> pweibull (N:=ER_Num S) (Fin x) (Fin 1) (Fin (1 / r)) false.
Proof.
  exists SFR, 1, (sf_eps SFR / 2). change (sf_eps SFR) with (/ 4503599627370496).
  repeat split; try lra.
  rewrite pexp_val by lra. rewrite pweibull_low by (change (sf_eps SFR) with (/ 4503599627370496); lra).
  unfold val. intros [= E]. pose proof (exp_cdf_pos 1 (/ 4503599627370496 / 2)). lra.
Qed.
