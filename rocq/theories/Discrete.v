(** Bernoulli, Rademacher, binomial and Poisson: sums, closed forms, quantile
    searches (C17-C22). *)
From Coq Require Import Reals ZArith QArith Bool Lra Lia Psatz.
From Verif Require Import Num Sanity ER ERTac Prob Dens Quant Spec SpecER ClosedElem LogForm Support.
Local Open Scope R_scope.

(** ** Any arithmetic: the recursions and the binomial search stop *)
Section Generic.
Context {T : Type} {N : Num T}.

Lemma ppois_recur_total (x : Z) (rate : T) : (0 <= x)%Z ->
  forall fuel r, (0 <= r <= x)%Z -> (Z.to_nat (x - r) < fuel)%nat ->
  ppois_recur fuel x rate r <> None.
Proof.
  intros Hx. induction fuel as [|fuel IH]; intros r Hr Hf; [lia|].
  cbn [ppois_recur].
  destruct (x =? 0)%Z eqn:E0; [discriminate|]. destruct (x =? 1)%Z eqn:E1; [discriminate|].
  apply Z.eqb_neq in E0, E1.
  destruct (r =? 0)%Z eqn:Er.
  - apply Z.eqb_eq in Er. subst r. specialize (IH (0 + 1)%Z ltac:(lia) ltac:(lia)).
    destruct (ppois_recur fuel x rate (0 + 1)); [discriminate|tauto].
  - destruct (r <? x)%Z eqn:El; [|discriminate]. apply Z.ltb_lt in El.
    specialize (IH (r + 1)%Z ltac:(lia) ltac:(lia)).
    destruct (ppois_recur fuel x rate (r + 1)); [discriminate|tauto].
Qed.
Lemma pbinom_recur_total (x n : Z) (p : T) :
  forall fuel c, (0 <= c <= x)%Z -> (Z.to_nat (x - c) < fuel)%nat ->
  pbinom_recur fuel x n p c <> None.
Proof.
  induction fuel as [|fuel IH]; intros c Hc Hf; [lia|]. cbn [pbinom_recur].
  destruct (c =? x)%Z eqn:E; [discriminate|]. apply Z.eqb_neq in E.
  specialize (IH (c + 1)%Z ltac:(lia) ltac:(lia)).
  destruct (pbinom_recur fuel x n p (c + 1)); [discriminate|tauto].
Qed.

(** pbinom at or above n is [T(1)] in any arithmetic *)
Lemma pbinom_top (x n : Z) (p : T) : binom_sanity n p = true -> (0 <= n <= x)%Z ->
  pbinom x n p false = ofZ 1.
Proof.
  intros Hs Hx. unfold pbinom. rewrite Hs. cbn [negb].
  rewrite (proj2 (Z.ltb_ge x 0)), (proj2 (Z.leb_le n x)) by lia. reflexivity.
Qed.
Lemma binom_sanity_n (n : Z) (p : T) : binom_sanity n p = true -> (0 <= n)%Z.
Proof.
  unfold binom_sanity. destruct (is_nan p); [discriminate|]. destruct (is_inf p); [discriminate|].
  destruct (n <? 0)%Z eqn:E; [discriminate|]. intros _. now apply Z.ltb_ge in E.
Qed.
(** the search performs at most n+2 tests of its loop condition, whatever the
    arithmetic does *)
Lemma qbinom_recur_total (n : Z) (pr p : T) : binom_sanity n pr = true -> prob_val_check p = true ->
  forall fuel v c, (0 <= c <= n + 1)%Z -> (c = (n + 1)%Z -> v = ofZ 1) ->
  (Z.to_nat (n + 1 - c) < fuel)%nat ->
  qbinom_recur fuel p n pr v c <> None.
Proof.
  intros Hs Hp. pose proof (binom_sanity_n _ _ Hs) as Hn.
  assert (Hp1 : ltb (ofZ 1) p = false).
  { unfold prob_val_check in Hp. destruct (is_nan p); [discriminate|].
    destruct (ltb p (ofZ 0)); [discriminate|]. destruct (ltb (ofZ 1) p); auto; discriminate. }
  induction fuel as [|fuel IH]; intros v c Hc Hv Hf; [lia|]. cbn [qbinom_recur].
  destruct (Z.eq_dec c (n + 1)) as [->|Hne].
  - rewrite Hv by auto. rewrite Hp1. discriminate.
  - destruct (ltb v p); [|discriminate]. apply IH; [lia| |lia].
    intros E. apply pbinom_top; auto. lia.
Qed.
Lemma qbinom_total (n : Z) (p pr : T) : qbinom_run (Z.to_nat n + 2) p n pr <> None.
Proof.
  unfold qbinom_run. destruct (binom_sanity n pr) eqn:Hs; cbn [negb]; [|discriminate].
  destruct (prob_val_check p) eqn:Hp; cbn [negb]; [|discriminate].
  destruct (eqb p (ofZ 0)); [discriminate|]. destruct (eqb p (ofZ 1)); [discriminate|].
  pose proof (binom_sanity_n _ _ Hs). apply qbinom_recur_total; auto; lia.
Qed.
(** more fuel changes nothing once the search has an answer *)
Lemma qbinom_recur_mono (n : Z) (pr p : T) : forall f1 f2 v c r, (f1 <= f2)%nat ->
  qbinom_recur f1 p n pr v c = Some r -> qbinom_recur f2 p n pr v c = Some r.
Proof.
  induction f1 as [|f1 IH]; intros f2 v c r Hf H; [discriminate|].
  destruct f2 as [|f2]; [lia|]. cbn [qbinom_recur] in *.
  destruct (ltb v p); auto. apply IH; auto. lia.
Qed.
Lemma qbinom_run_value (fuel : nat) (n : Z) (p pr : T) : (Z.to_nat n + 2 <= fuel)%nat ->
  qbinom_run fuel p n pr = Some (qbinom p n pr).
Proof.
  intros Hf. unfold qbinom. pose proof (qbinom_total n p pr) as Ht.
  destruct (qbinom_run (Z.to_nat n + 2) p n pr) as [r|] eqn:E; [|tauto].
  unfold qbinom_run in *.
  destruct (negb (binom_sanity n pr)); auto. destruct (negb (prob_val_check p)); auto.
  destruct (eqb p (ofZ 0)); auto. destruct (eqb p (ofZ 1)); auto.
  eapply qbinom_recur_mono; eauto.
Qed.
End Generic.

(** ** Exact arithmetic *)
Section S.
Variable S : SF.
Notation NS := (ER_Num S).

(** *** Bernoulli, Rademacher *)
Lemma dbern_val x p lf : 0 <= p <= 1 -> dbern (N:=NS) x (Fin p) lf = val lf (bern_pmf p x).
Proof.
  intros. unfold dbern, dbern_compute, bern_pmf. un_cls. er_arith. rdecide.
  destruct (x =? 1)%Z, (x =? 0)%Z, lf; reflexivity.
Qed.
Lemma dradem_val x p lf : 0 <= p <= 1 -> dradem (N:=NS) x (Fin p) lf = val lf (radem_pmf p x).
Proof.
  intros. unfold dradem, dradem_compute, radem_pmf. un_cls. er_arith. rdecide.
  destruct (x =? 1)%Z, (x =? -1)%Z, lf; reflexivity.
Qed.
Definition bern_cdf (p : R) (x : Z) : R := if (x <? 0)%Z then 0 else if (x <? 1)%Z then 1 - p else 1.
Definition radem_cdf (p : R) (x : Z) : R := if (x <? -1)%Z then 0 else if (x <? 1)%Z then 1 - p else 1.
Lemma pbern_val x p lf : 0 <= p <= 1 -> pbern (N:=NS) x (Fin p) lf = val lf (bern_cdf p x).
Proof.
  intros. unfold pbern, pbern_compute, bern_cdf. un_cls. er_arith. rdecide.
  replace (x <? 1)%Z with (negb (1 <=? x)%Z) by (rewrite Z.leb_antisym; now destruct (x <? 1)%Z).
  destruct (x <? 0)%Z, (1 <=? x)%Z, lf; reflexivity.
Qed.
Lemma pradem_val x p lf : 0 <= p <= 1 -> pradem (N:=NS) x (Fin p) lf = val lf (radem_cdf p x).
Proof.
  intros. unfold pradem, pradem_compute, radem_cdf. un_cls. er_arith. rdecide.
  replace (x <? 1)%Z with (negb (1 <=? x)%Z) by (rewrite Z.leb_antisym; now destruct (x <? 1)%Z).
  destruct (x <? -1)%Z, (1 <=? x)%Z, lf; reflexivity.
Qed.

(** *** Binomial *)
Lemma C_pos n k : 0 < Binomial.C n k.
Proof.
  unfold Binomial.C. apply Rdiv_lt_0_compat; [apply lt_0_INR, lt_O_fact|].
  apply Rmult_lt_0_compat; apply lt_0_INR, lt_O_fact.
Qed.
Lemma C_0 n : Binomial.C n 0 = 1.
Proof.
  unfold Binomial.C. rewrite Nat.sub_0_r. change (INR (fact 0)) with 1.
  field. apply not_0_INR, fact_neq_0.
Qed.
Lemma C_n n : Binomial.C n n = 1.
Proof.
  unfold Binomial.C. rewrite Nat.sub_diag. change (INR (fact 0)) with 1.
  field. apply not_0_INR, fact_neq_0.
Qed.
Lemma exp_INR_ln n a : 0 < a -> Rtrigo_def.exp (INR n * ln a) = a ^ n.
Proof. intros. rewrite <- Rpower_pow by auto. reflexivity. Qed.
(** [n * log a] and its exponential, including [a = 0] *)
Lemma mul_log (n : nat) a : 0 <= a -> (0 < n)%nat ->
  eexp (emul (Fin (INR n)) (elog (Fin a))) = Fin (a ^ n) /\
  (emul (Fin (INR n)) (elog (Fin a)) = MInf /\ a = 0 \/
   0 < a /\ emul (Fin (INR n)) (elog (Fin a)) = Fin (INR n * ln a)).
Proof.
  intros [Ha|<-] Hn.
  - rewrite elog_F by auto. rewrite emul_F, eexp_F, exp_INR_ln by auto. auto.
  - rewrite elog_0, emul_pos_M by now apply lt_0_INR. rewrite pow_i by auto. auto.
Qed.
Lemma IZR_of_nat n : IZR (Z.of_nat n) = INR n.
Proof. now rewrite <- INR_IZR_INZ. Qed.
Lemma dbinom_val (x n : nat) p : 0 <= p <= 1 ->
  dbinom (N:=NS) (Z.of_nat x) (Z.of_nat n) (Fin p) false = Fin (binom_pmf n p x).
Proof.
  intros Hp. unfold binom_pmf. destruct (Nat.leb x n) eqn:Hxn.
  2:{ apply Nat.leb_gt in Hxn. rewrite dbinom_out; auto; lia. }
  apply Nat.leb_le in Hxn. unfold dbinom. rewrite dbern_val by auto.
  assert (Hs : binom_sanity (N:=NS) (Z.of_nat n) (Fin p) = true).
  { un_cls. rewrite (proj2 (Z.ltb_ge (Z.of_nat n) 0)) by lia. er_arith. rdecide. auto. }
  rewrite Hs. cbn [negb].
  rewrite (proj2 (Z.ltb_ge (Z.of_nat x) 0)), (proj2 (Z.ltb_ge (Z.of_nat n) (Z.of_nat x))) by lia.
  cbn [orb]. destruct (Z.of_nat n =? 0)%Z eqn:E0.
  { apply Z.eqb_eq in E0. assert (n = 0)%nat by lia. assert (x = 0)%nat by lia. subst.
    unfold dbinom_limit_vals. cbn. rewrite C_0. f_equal. lra. }
  apply Z.eqb_neq in E0. destruct (Z.of_nat n =? 1)%Z eqn:E1.
  { apply Z.eqb_eq in E1. assert (n = 1)%nat by lia. subst n. unfold val, bern_pmf.
    assert (x = 0 \/ x = 1)%nat as [->| ->] by lia; cbn.
    - rewrite C_0. f_equal; lra.
    - rewrite C_n. f_equal; lra. }
  apply Z.eqb_neq in E1. unfold dbinom_log_compute, exp_if. cbn [negb].
  destruct (Z.of_nat x =? 0)%Z eqn:Ex0.
  { apply Z.eqb_eq in Ex0. assert (x = 0)%nat by lia. subst x. un_cls. er_arith.
    rewrite IZR_of_nat. rewrite (proj1 (mul_log n (1 - p) ltac:(lra) ltac:(lia))).
    rewrite C_0, Nat.sub_0_r. f_equal. cbn [pow]. lra. }
  apply Z.eqb_neq in Ex0. destruct (Z.of_nat x =? Z.of_nat n)%Z eqn:Exn.
  { apply Z.eqb_eq in Exn. assert (x = n)%nat by lia. subst x. un_cls. er_arith.
    rewrite IZR_of_nat. rewrite (proj1 (mul_log n p ltac:(lra) ltac:(lia))).
    rewrite C_n, Nat.sub_diag. f_equal. cbn [pow]. lra. }
  apply Z.eqb_neq in Exn. un_cls. rewrite !Nat2Z.id. er_arith.
  rewrite <- Nat2Z.inj_sub by lia. rewrite !IZR_of_nat.
  destruct (mul_log x p ltac:(lra) ltac:(lia)) as [_ Hx].
  destruct (mul_log (n - x) (1 - p) ltac:(lra) ltac:(lia)) as [_ Hy].
  destruct Hx as [[-> Hx]|[Hx ->]], Hy as [[-> Hy]|[Hy ->]]; cbn [eadd eexp].
  - lra.
  - rewrite Hx, pow_i by lia. f_equal. lra.
  - rewrite Hy, pow_i by lia. f_equal. lra.
  - rewrite !exp_plus, !exp_INR_ln, exp_ln by (auto; apply C_pos). reflexivity.
Qed.
Lemma binom_pmf_nonneg n p k : 0 <= p <= 1 -> 0 <= binom_pmf n p k.
Proof.
  intros. unfold binom_pmf. destruct (Nat.leb k n); [|lra].
  apply Rmult_le_pos; [apply Rmult_le_pos|]; try (apply pow_le; lra). left; apply C_pos.
Qed.
Lemma binom_sum n p : sum_f_R0 (binom_pmf n p) n = 1.
Proof.
  transitivity ((p + (1 - p)) ^ n).
  - rewrite binomial. apply sum_eq. intros i Hi. unfold binom_pmf.
    rewrite (proj2 (Nat.leb_le i n)) by auto. reflexivity.
  - replace (p + (1 - p)) with 1 by lra. apply pow1.
Qed.
Lemma binom_sum_ge n p x : (n <= x)%nat -> sum_f_R0 (binom_pmf n p) x = 1.
Proof.
  intros H. induction H as [|x H IH]; [apply binom_sum|].
  cbn [sum_f_R0]. rewrite IH. unfold binom_pmf.
  rewrite (proj2 (Nat.leb_gt (Datatypes.S x) n)) by lia. lra.
Qed.
(** the recursion is the partial sum *)
Lemma pbinom_recur_sum (x n : nat) p : 0 <= p <= 1 ->
  forall d c fuel, (c + d = x)%nat -> (d < fuel)%nat ->
  pbinom_recur (N:=NS) fuel (Z.of_nat x) (Z.of_nat n) (Fin p) (Z.of_nat c)
  = Some (Fin (sum_f_R0 (fun i => binom_pmf n p (c + i)) d)).
Proof.
  intros Hp. induction d as [|d IH]; intros c fuel Hc Hf; (destruct fuel as [|fuel]; [lia|]);
    cbn [pbinom_recur].
  - rewrite (proj2 (Z.eqb_eq (Z.of_nat c) (Z.of_nat x))) by lia. rewrite dbinom_val by auto.
    cbn [sum_f_R0]. rewrite Nat.add_0_r. reflexivity.
  - rewrite (proj2 (Z.eqb_neq (Z.of_nat c) (Z.of_nat x))) by lia.
    replace (Z.of_nat c + 1)%Z with (Z.of_nat (Datatypes.S c)) by lia.
    rewrite IH by lia. rewrite dbinom_val by auto. cbn [option_map add ER_Num].
    rewrite eadd_F. do 2 f_equal.
    rewrite (decomp_sum (fun i => binom_pmf n p (c + i)) (Datatypes.S d)) by lia.
    rewrite Nat.add_0_r. f_equal. cbn [Nat.pred]. apply sum_eq. intros i _. f_equal. lia.
Qed.
Lemma pbinom_val (x n : nat) p lf : 0 <= p <= 1 ->
  pbinom (N:=NS) (Z.of_nat x) (Z.of_nat n) (Fin p) lf = val lf (sum_f_R0 (binom_pmf n p) x).
Proof.
  intros Hp. assert (Hs : binom_sanity (N:=NS) (Z.of_nat n) (Fin p) = true).
  { un_cls. rewrite (proj2 (Z.ltb_ge (Z.of_nat n) 0)) by lia. er_arith. rdecide. auto. }
  destruct (le_lt_dec n x) as [Hx|Hx].
  { rewrite binom_sum_ge by auto. rewrite pbinom_above by (auto; lia).
    destruct lf; unfold val; rewrite ?elog_1; auto. }
  unfold pbinom. rewrite Hs. cbn [negb].
  rewrite (proj2 (Z.ltb_ge (Z.of_nat x) 0)), (proj2 (Z.leb_gt (Z.of_nat n) (Z.of_nat x))) by lia.
  destruct (Z.of_nat n =? 1)%Z eqn:E1.
  { apply Z.eqb_eq in E1. assert (n = 1)%nat by lia. assert (x = 0)%nat by lia. subst.
    rewrite pbern_val by auto. f_equal. unfold bern_cdf, binom_pmf. cbn. rewrite C_0. lra. }
  rewrite (pbinom_recur_sum x n p Hp x 0) by lia. reflexivity.
Qed.
Lemma dbinom_val_lf (x n : nat) p lf : 0 <= p <= 1 ->
  dbinom (N:=NS) (Z.of_nat x) (Z.of_nat n) (Fin p) lf = val lf (binom_pmf n p x).
Proof.
  intros. destruct lf; [|now apply dbinom_val]. rewrite dbinom_log, dbinom_val by auto. reflexivity.
Qed.

(** *** Poisson *)
Definition lgamma_int_ok := forall n : nat, sf_lgamma S (Fin (INR n + 1)) = Fin (ln (INR (fact n))).
Definition incgamma_int_ok := forall (n : nat) r, 0 <= r ->
  sf_incgamma S (Fin (INR n + 1)) (Fin r) =
  Fin (1 - Rtrigo_def.exp (- r) * sum_f_R0 (fun k => r ^ k / INR (fact k)) n).
Lemma dpois_val (x : nat) r lf : lgamma_int_ok -> 0 <= r ->
  dpois (N:=NS) (Z.of_nat x) (Fin r) lf = val lf (pois_pmf r x).
Proof.
  intros Hg Hr. unfold dpois, dpois_log_compute. un_cls. er_arith.
  rewrite (proj2 (Z.ltb_ge (Z.of_nat x) 0)) by lia. rdecide.
  unfold pois_pmf.
  assert (Hf : 0 < INR (fact x)) by apply lt_0_INR, lt_O_fact.
  destruct Hr as [Hr|<-].
  - rdecide. rewrite elog_F by auto. rewrite plus_IZR, IZR_of_nat, Hg. er_arith.
    apply expval. rewrite !exp_minus, exp_INR_ln, exp_ln by auto.
    unfold Rdiv at 2. rewrite <- exp_Ropp. reflexivity.
  - rdecide. destruct x as [|x].
    + cbn. replace (1 * Rtrigo_def.exp (- 0) / 1) with 1
        by (rewrite Ropp_0, exp_0; field).
      destruct lf; unfold val; rewrite ?elog_1; auto.
    + rewrite (proj2 (Z.eqb_neq (Z.of_nat (Datatypes.S x)) 0)) by lia.
      rewrite pow_i by lia. unfold Rdiv. rewrite !Rmult_0_l.
      destruct lf; unfold val; rewrite ?elog_0; auto.
Qed.
Lemma ppois_recur_sum (x : nat) rate : (2 <= x)%nat ->
  forall d r fuel, (r + d = x)%nat -> (d < fuel)%nat ->
  ppois_recur (N:=NS) fuel (Z.of_nat x) (Fin rate) (Z.of_nat r)
  = Some (Fin (sum_f_R0 (fun i => rate ^ (r + i) / INR (fact (r + i))) d)).
Proof.
  intros Hx. induction d as [|d IH]; intros r fuel Hr Hf; (destruct fuel as [|fuel]; [lia|]);
    cbn [ppois_recur].
  - rewrite (proj2 (Z.eqb_neq (Z.of_nat x) 0)), (proj2 (Z.eqb_neq (Z.of_nat x) 1)),
      (proj2 (Z.eqb_neq (Z.of_nat r) 0)), (proj2 (Z.ltb_ge (Z.of_nat r) (Z.of_nat x))) by lia.
    un_cls. er_arith. rewrite Nat2Z.id.
    rewrite ediv_F by (apply not_0_INR, fact_neq_0). cbn [sum_f_R0]. now rewrite Nat.add_0_r.
  - rewrite (proj2 (Z.eqb_neq (Z.of_nat x) 0)), (proj2 (Z.eqb_neq (Z.of_nat x) 1)) by lia.
    replace (Z.of_nat r + 1)%Z with (Z.of_nat (Datatypes.S r)) by lia.
    rewrite IH by lia.
    assert (E : sum_f_R0 (fun i => rate ^ (r + i) / INR (fact (r + i))) (Datatypes.S d)
      = rate ^ r / INR (fact r)
        + sum_f_R0 (fun i => rate ^ (Datatypes.S r + i) / INR (fact (Datatypes.S r + i))) d).
    { rewrite decomp_sum by lia. rewrite Nat.add_0_r. f_equal. cbn [Nat.pred].
      apply sum_eq. intros i _.
      replace (r + Datatypes.S i)%nat with (Datatypes.S r + i)%nat by lia. reflexivity. }
    rewrite E. un_cls.
    destruct (Z.of_nat r =? 0)%Z eqn:E0.
    + apply Z.eqb_eq in E0. assert (r = 0)%nat by lia. subst r. er_arith.
      do 2 f_equal. cbn [pow fact INR]. lra.
    + rewrite (proj2 (Z.ltb_lt (Z.of_nat r) (Z.of_nat x))) by lia. rewrite Nat2Z.id.
      er_arith. rewrite ediv_F by (apply not_0_INR, fact_neq_0). er_arith.
      rewrite ?Nat2Z.id. reflexivity.
Qed.
Lemma pois_sum_scal r x : sum_f_R0 (pois_pmf r) x
  = Rtrigo_def.exp (- r) * sum_f_R0 (fun k => r ^ k / INR (fact k)) x.
Proof.
  rewrite scal_sum. apply sum_eq. intros i _. unfold pois_pmf. unfold Rdiv. ring.
Qed.
Lemma ppois_val (x : nat) r lf : incgamma_int_ok -> 0 <= r ->
  ppois (N:=NS) (Z.of_nat x) (Fin r) lf = val lf (sum_f_R0 (pois_pmf r) x).
Proof.
  intros Hg Hr. rewrite pois_sum_scal. unfold ppois. un_cls. er_arith.
  rewrite (proj2 (Z.ltb_ge (Z.of_nat x) 0)) by lia. rdecide.
  enough (ppois_compute (N:=NS) (Z.of_nat x) (Fin r)
    = Fin (Rtrigo_def.exp (- r) * sum_f_R0 (fun k => r ^ k / INR (fact k)) x)) as E.
  { refold S. rewrite E. destruct lf; reflexivity. }
  unfold ppois_compute. destruct ((Fin r >? ofZ 10)%num || (15 <? Z.of_nat x)%Z).
  - un_cls. rewrite plus_IZR, IZR_of_nat, Hg by auto. er_arith. f_equal. ring.
  - destruct x as [|[|x]].
    + change (ppois_recur (N:=NS) (Z.to_nat (Z.of_nat 0) + 2) (Z.of_nat 0) (Fin r) 0)
        with (Some (Fin 1)).
      un_cls. er_arith. apply f_equal. cbn [sum_f_R0 Rpow_def.pow fact INR]. field.
    + change (ppois_recur (N:=NS) (Z.to_nat (Z.of_nat 1) + 2) (Z.of_nat 1) (Fin r) 0)
        with (Some (Fin (1 + r))).
      un_cls. er_arith. apply f_equal.
      cbn [sum_f_R0 Rpow_def.pow fact INR Nat.mul Nat.add]. field.
    + rewrite (ppois_recur_sum (Datatypes.S (Datatypes.S x)) r ltac:(lia)
                 (Datatypes.S (Datatypes.S x)) 0) by lia.
      reflexivity.
Qed.
Lemma pois_pmf_nonneg r k : 0 <= r -> 0 <= pois_pmf r k.
Proof.
  intros. unfold pois_pmf. apply Rmult_le_pos.
  - apply Rmult_le_pos; [now apply pow_le|left; apply exp_pos].
  - left. apply Rinv_0_lt_compat, lt_0_INR, lt_O_fact.
Qed.
(** the probabilities sum to one *)
Lemma pois_sum_to_1 r : infinite_sum (pois_pmf r) 1.
Proof.
  unfold Rtrigo_def.exp. intros eps Heps.
  assert (He : infinite_sum (fun k => / INR (fact k) * r ^ k) (Rtrigo_def.exp r)).
  { unfold Rtrigo_def.exp. destruct (exist_exp r) as [l Hl]. exact Hl. }
  pose proof (exp_pos r) as Hpos.
  destruct (He (eps * Rtrigo_def.exp r)) as [M HM].
  { now apply Rmult_lt_0_compat. }
  exists M. intros n Hn. specialize (HM n Hn). rewrite pois_sum_scal.
  replace (sum_f_R0 (fun k => r ^ k / INR (fact k)) n)
    with (sum_f_R0 (fun k => / INR (fact k) * r ^ k) n)
    by (apply sum_eq; intros; unfold Rdiv; ring).
  unfold R_dist in *. rewrite exp_Ropp.
  set (s := sum_f_R0 (fun k => / INR (fact k) * r ^ k) n) in *.
  replace (/ Rtrigo_def.exp r * s - 1) with ((s - Rtrigo_def.exp r) / Rtrigo_def.exp r) by (field; lra).
  unfold Rdiv. rewrite Rabs_mult, (Rabs_right (/ Rtrigo_def.exp r)).
  2:{ apply Rle_ge. left. now apply Rinv_0_lt_compat. }
  apply (Rmult_lt_reg_r (Rtrigo_def.exp r)); auto. rewrite Rmult_assoc, Rinv_l by lra. lra.
Qed.
End S.
