(** Quantile searches of the discrete distributions in exact arithmetic
    (C17-C19), and the partial-sum identities of C22. *)
From Coq Require Import Reals ZArith QArith Bool Lra Lia Psatz.
From Verif Require Import Num Sanity ER ERTac Prob Dens Quant Spec SpecER ClosedElem LogForm
  Support Discrete.
Local Open Scope R_scope.

(** the fuel only decides whether an answer is reached, never which *)
Section Fuel.
Context {T : Type} {N : Num T}.
Lemma qpois_search_mono (p r : T) : forall f1 f2 v c res, (f1 <= f2)%nat ->
  qpois_search f1 p r v c = Some res -> qpois_search f2 p r v c = Some res.
Proof.
  induction f1 as [|f1 IH]; intros f2 v c res Hf H; [discriminate|].
  destruct f2 as [|f2]; [lia|]. cbn [qpois_search] in *.
  destruct (leb v p); auto. apply IH; auto. lia.
Qed.
Lemma qpois_run_mono tr (p r : T) f1 f2 res : (f1 <= f2)%nat ->
  qpois_run tr f1 p r = Some res -> qpois_run tr f2 p r = Some res.
Proof.
  intros Hf. unfold qpois_run.
  destruct (negb (pois_sanity r)); auto. destruct (negb (prob_val_check p)); auto.
  destruct (eqb p (ofZ 0)); auto. destruct (ltb r epsilon); auto.
  destruct (eqb p (ofZ 1)); auto. destruct (ltb r (ofZ 11)).
  - now apply qpois_search_mono.
  - destruct (tr _); auto. now apply qpois_search_mono.
Qed.
End Fuel.

Section S.
Variable S : SF.
Notation NS := (ER_Num S).

(** *** Bernoulli, Rademacher *)
Lemma bern_step p x : bern_cdf p (x + 1) = bern_cdf p x + bern_pmf p (x + 1).
Proof.
  unfold bern_cdf, bern_pmf.
  destruct (x + 1 <? 0)%Z eqn:A, (x + 1 <? 1)%Z eqn:B, (x <? 0)%Z eqn:C, (x <? 1)%Z eqn:D,
    (x + 1 =? 1)%Z eqn:E, (x + 1 =? 0)%Z eqn:F;
  rewrite ?Z.ltb_lt, ?Z.ltb_ge, ?Z.eqb_eq, ?Z.eqb_neq in *; try lia; lra.
Qed.
Lemma bern_sum p lo : (lo <= 0)%Z -> forall n,
  sum_f_R0 (fun i => bern_pmf p (lo + Z.of_nat i)) n = bern_cdf p (lo + Z.of_nat n).
Proof.
  intros Hlo. induction n as [|n IH]; cbn [sum_f_R0].
  - rewrite Z.add_0_r. unfold bern_cdf, bern_pmf.
    destruct (lo <? 0)%Z eqn:A, (lo <? 1)%Z eqn:B, (lo =? 1)%Z eqn:E, (lo =? 0)%Z eqn:F;
    rewrite ?Z.ltb_lt, ?Z.ltb_ge, ?Z.eqb_eq, ?Z.eqb_neq in *; try lia; lra.
  - rewrite IH. replace (lo + Z.of_nat (Datatypes.S n))%Z with (lo + Z.of_nat n + 1)%Z by lia.
    now rewrite bern_step.
Qed.
Lemma radem_step p x : radem_cdf p (x + 1) = radem_cdf p x + radem_pmf p (x + 1).
Proof.
  unfold radem_cdf, radem_pmf.
  destruct (x + 1 <? -1)%Z eqn:A, (x + 1 <? 1)%Z eqn:B, (x <? -1)%Z eqn:C, (x <? 1)%Z eqn:D,
    (x + 1 =? 1)%Z eqn:E, (x + 1 =? -1)%Z eqn:F;
  rewrite ?Z.ltb_lt, ?Z.ltb_ge, ?Z.eqb_eq, ?Z.eqb_neq in *; try lia; lra.
Qed.
Lemma radem_sum p lo : (lo <= -1)%Z -> forall n,
  sum_f_R0 (fun i => radem_pmf p (lo + Z.of_nat i)) n = radem_cdf p (lo + Z.of_nat n).
Proof.
  intros Hlo. induction n as [|n IH]; cbn [sum_f_R0].
  - rewrite Z.add_0_r. unfold radem_cdf, radem_pmf.
    destruct (lo <? -1)%Z eqn:A, (lo <? 1)%Z eqn:B, (lo =? 1)%Z eqn:E, (lo =? -1)%Z eqn:F;
    rewrite ?Z.ltb_lt, ?Z.ltb_ge, ?Z.eqb_eq, ?Z.eqb_neq in *; try lia; lra.
  - rewrite IH. replace (lo + Z.of_nat (Datatypes.S n))%Z with (lo + Z.of_nat n + 1)%Z by lia.
    now rewrite radem_step.
Qed.

Lemma qbern_quantile p pr : 0 <= p <= 1 -> 0 <= pr <= 1 ->
  exists k, qbern (N:=NS) (Fin p) (Fin pr) = Fin (IZR k) /\
  is_quantile (fun j => pbern (N:=NS) j (Fin pr) false) (fun j => j = 0 \/ j = 1)%Z (Fin p) k.
Proof.
  intros Hp Hpr. unfold qbern. un_cls. er_arith. rdecide. unfold is_quantile. rdec_split.
  - exists 1%Z. refold S. repeat split; auto.
    + rewrite pbern_val by auto. apply Ele_Fin. unfold bern_cdf; cbn. lra.
    + intros j [->| ->] Hj; [|lia]. rewrite pbern_val by auto. apply Elt_Fin.
      unfold bern_cdf; cbn. lra.
  - exists 0%Z. refold S. repeat split; auto.
    + rewrite pbern_val by auto. apply Ele_Fin. unfold bern_cdf; cbn. lra.
    + intros j [->| ->] Hj; lia.
Qed.
Lemma qradem_quantile p pr : 0 <= p <= 1 -> 0 <= pr <= 1 ->
  exists k, qradem (N:=NS) (Fin p) (Fin pr) = Fin (IZR k) /\
  is_quantile (fun j => pradem (N:=NS) j (Fin pr) false) (fun j => j = -1 \/ j = 1)%Z (Fin p) k.
Proof.
  intros Hp Hpr. unfold qradem. un_cls. er_arith. rdecide. unfold is_quantile. rdec_split.
  - exists 1%Z. refold S. repeat split; auto.
    + rewrite pradem_val by auto. apply Ele_Fin. unfold radem_cdf; cbn. lra.
    + intros j [->| ->] Hj; [|lia]. rewrite pradem_val by auto. apply Elt_Fin.
      unfold radem_cdf; cbn. lra.
  - exists (-1)%Z. refold S. repeat split; auto.
    + rewrite pradem_val by auto. apply Ele_Fin. unfold radem_cdf; cbn. lra.
    + intros j [->| ->] Hj; lia.
Qed.

(** *** Binomial *)
Lemma sum_mono (f : nat -> R) a b : (forall k, 0 <= f k) -> (a <= b)%nat ->
  sum_f_R0 f a <= sum_f_R0 f b.
Proof. intros Hf H. induction H; [lra|]. cbn [sum_f_R0]. specialize (Hf (Datatypes.S m)). lra. Qed.

Lemma qbinom_search (n : nat) p pr : 0 < p -> 0 <= pr <= 1 ->
  forall fuel (c : nat) v r,
  (forall j : nat, (j < c)%nat -> (Datatypes.S j < c)%nat \/ v < p -> sum_f_R0 (binom_pmf n pr) j < p) ->
  (c = 0%nat -> v = 0) -> ((0 < c)%nat -> v = sum_f_R0 (binom_pmf n pr) (c - 1)) ->
  qbinom_recur (N:=NS) fuel (Fin p) (Z.of_nat n) (Fin pr) (Fin v) (Z.of_nat c) = Some r ->
  exists k : nat, r = Fin (IZR (Z.of_nat k)) /\ p <= sum_f_R0 (binom_pmf n pr) k /\
    forall j : nat, (j < k)%nat -> sum_f_R0 (binom_pmf n pr) j < p.
Proof.
  intros Hp Hpr. induction fuel as [|fuel IH]; intros c v r Hj H0 H1 H; [discriminate|].
  cbn [qbinom_recur] in H. change (ltb (Fin v) (Fin p)) with (Rltb v p) in H.
  destruct (Rltb v p) eqn:E.
  - apply Rltb_true in E. rewrite pbinom_val in H by auto. unfold val in H.
    replace (Z.of_nat c + 1)%Z with (Z.of_nat (Datatypes.S c)) in H by lia.
    apply IH in H; auto; try (intros; lia).
    + intros j Hlt [Hl|Hl].
      * destruct (Nat.eq_dec (Datatypes.S j) c) as [<-|Hne].
        { rewrite H1 in E by lia. now rewrite Nat.sub_succ, Nat.sub_0_r in E. }
        apply Hj; lia.
      * destruct (Nat.eq_dec j c) as [->|Hne]; [auto|]. apply Hj; [lia|auto].
    + intros _. now rewrite Nat.sub_succ, Nat.sub_0_r.
  - apply Rltb_false in E. destruct c as [|c]; [rewrite H0 in E by auto; lra|].
    exists c. split; [|split].
    + replace (Z.of_nat (Datatypes.S c) - 1)%Z with (Z.of_nat c) in H by lia.
      now injection H as <-.
    + rewrite H1 in E by lia. now rewrite Nat.sub_succ, Nat.sub_0_r in E.
    + intros j Hlt. apply Hj; lia.
Qed.
Lemma qbinom_quantile (n : nat) p pr : 0 < p < 1 -> 0 <= pr <= 1 ->
  exists k, qbinom (N:=NS) (Fin p) (Z.of_nat n) (Fin pr) = Fin (IZR k) /\
  is_quantile (fun j => pbinom (N:=NS) j (Z.of_nat n) (Fin pr) false)
    (fun j => 0 <= j <= Z.of_nat n)%Z (Fin p) k.
Proof.
  intros Hp Hpr.
  pose proof (qbinom_run_value (N:=NS) (Z.to_nat (Z.of_nat n) + 2) (Z.of_nat n) (Fin p) (Fin pr)
    (le_n _)) as H.
  unfold qbinom_run in H.
  assert (Hs : binom_sanity (N:=NS) (Z.of_nat n) (Fin pr) = true).
  { un_cls. rewrite (proj2 (Z.ltb_ge (Z.of_nat n) 0)) by lia. er_arith. rdecide. auto. }
  rewrite Hs in H. revert H. un_cls. er_arith. rdecide. refold S. intros H.
  change (Z.of_nat 0) with 0%Z in H.
  apply (qbinom_search n p pr ltac:(lra) Hpr _ 0%nat) in H; try (intros; lia); auto.
  destruct H as (k & Hk & Hle & Hlt). exists (Z.of_nat k). split; [auto|].
  assert (Hkn : (k <= n)%nat).
  { destruct (le_lt_dec k n); auto. specialize (Hlt n ltac:(lia)).
    rewrite binom_sum in Hlt. lra. }
  repeat split; try lia.
  - rewrite pbinom_val by auto. now apply Ele_Fin.
  - intros j Hj Hjk. replace j with (Z.of_nat (Z.to_nat j)) by lia. rewrite pbinom_val by auto.
    apply Elt_Fin, Hlt. lia.
Qed.
(** at p = 1 the code answers n, which is the smallest point with CDF 1 exactly
    when the success probability is positive *)
Lemma qbinom_one (n : nat) pr : 0 <= pr <= 1 ->
  qbinom (N:=NS) (Fin 1) (Z.of_nat n) (Fin pr) = Fin (INR n).
Proof.
  intros Hpr. unfold qbinom, qbinom_run.
  assert (Hs : binom_sanity (N:=NS) (Z.of_nat n) (Fin pr) = true).
  { un_cls. rewrite (proj2 (Z.ltb_ge (Z.of_nat n) 0)) by lia. er_arith. rdecide. auto. }
  rewrite Hs. un_cls. er_arith. rdecide. now rewrite IZR_of_nat.
Qed.
Lemma qbinom_zero (n : nat) pr : 0 <= pr <= 1 ->
  qbinom (N:=NS) (Fin 0) (Z.of_nat n) (Fin pr) = Fin 0.
Proof.
  intros Hpr. unfold qbinom, qbinom_run.
  assert (Hs : binom_sanity (N:=NS) (Z.of_nat n) (Fin pr) = true).
  { un_cls. rewrite (proj2 (Z.ltb_ge (Z.of_nat n) 0)) by lia. er_arith. rdecide. auto. }
  rewrite Hs. un_cls. er_arith. rdecide. reflexivity.
Qed.
Lemma binom_partial_lt_1 (n j : nat) pr : 0 < pr <= 1 -> (j < n)%nat ->
  sum_f_R0 (binom_pmf n pr) j < 1.
Proof.
  intros Hpr Hj. pose proof (binom_sum n pr) as Hs.
  destruct n as [|n]; [lia|]. cbn [sum_f_R0] in Hs.
  assert (Hpr' : 0 <= pr <= 1) by lra.
  pose proof (sum_mono (binom_pmf (Datatypes.S n) pr) j n
    (fun k => binom_pmf_nonneg _ _ k Hpr') ltac:(lia)).
  assert (0 < binom_pmf (Datatypes.S n) pr (Datatypes.S n)).
  { unfold binom_pmf. rewrite Nat.leb_refl, C_n, Nat.sub_diag. cbn [Rpow_def.pow].
    rewrite Rmult_1_r, Rmult_1_l. apply Rmult_lt_0_compat; [lra|]. apply pow_lt; lra. }
  lra.
Qed.
Lemma qbinom_one_quantile (n : nat) pr : 0 < pr <= 1 ->
  is_quantile (fun j => pbinom (N:=NS) j (Z.of_nat n) (Fin pr) false)
    (fun j => 0 <= j <= Z.of_nat n)%Z (Fin 1) (Z.of_nat n).
Proof.
  intros Hpr. repeat split; try lia.
  - rewrite pbinom_val by lra. unfold val. rewrite binom_sum. apply Ele_Fin. lra.
  - intros j Hj Hlt. replace j with (Z.of_nat (Z.to_nat j)) by lia. rewrite pbinom_val by lra.
    apply Elt_Fin, binom_partial_lt_1; auto. lia.
Qed.
Lemma qbinom_one_bad (n : nat) : (0 < n)%nat ->
  qbinom (N:=NS) (Fin 1) (Z.of_nat n) (Fin 0) = Fin (INR n) /\
  is_quantile (fun j => pbinom (N:=NS) j (Z.of_nat n) (Fin 0) false)
    (fun j => 0 <= j <= Z.of_nat n)%Z (Fin 1) 0.
Proof.
  intros Hn. split; [apply qbinom_one; lra|]. repeat split; try lia.
  pose proof (pbinom_val S 0 n 0 false ltac:(lra)) as E. change (Z.of_nat 0) with 0%Z in E.
  rewrite E. apply Ele_Fin.
  unfold binom_pmf. cbn [sum_f_R0 Nat.leb]. rewrite C_0, Rminus_0_r, pow1. cbn. lra.
Qed.

(** *** Poisson *)
Section Pois.
Variable r : R.
Hypothesis Hr : 0 <= r.
Variable f : nat -> R.
Hypothesis Hf : forall k, ppois (N:=NS) (Z.of_nat k) (Fin r) false = Fin (f k).

Lemma qpois_search_spec p : forall d (c : nat) v fuel,
  v <= p -> (exists k, (c <= k <= c + d)%nat /\ p < f k) -> (d + 2 <= fuel)%nat ->
  exists k, (c <= k)%nat /\ p < f k /\ (forall j, (c <= j < k)%nat -> f j <= p) /\
  qpois_search (N:=NS) fuel (Fin p) (Fin r) (Fin v) (Z.of_nat c) = Some (Fin (IZR (Z.of_nat k))).
Proof.
  induction d as [|d IH]; intros c v fuel Hv (k & Hk & Hp) Hfuel;
    (destruct fuel as [|fuel]; [lia|]); cbn [qpois_search];
    change (leb (Fin v) (Fin p)) with (Rleb v p); rewrite (proj2 (Rleb_true v p) Hv);
    rewrite Hf; replace (Z.of_nat c + 1)%Z with (Z.of_nat (Datatypes.S c)) by lia.
  - assert (k = c) by lia. subst k. exists c. repeat split; auto; try lia.
    destruct fuel as [|fuel]; [lia|]. cbn [qpois_search].
    change (leb (Fin (f c)) (Fin p)) with (Rleb (f c) p). rewrite (proj2 (Rleb_false (f c) p) Hp).
    rewrite (proj2 (Z.ltb_lt 0 _)) by lia. 
    change (Some (Fin (IZR (Z.of_nat (Datatypes.S c) - 1))) = Some (Fin (IZR (Z.of_nat c)))).
    now replace (Z.of_nat (Datatypes.S c) - 1)%Z with (Z.of_nat c) by lia.
  - destruct (Rle_lt_dec (f c) p) as [Hc|Hc].
    + destruct (IH (Datatypes.S c) (f c) fuel Hc) as (k' & H1 & H2 & H3 & H4); [|lia|].
      { exists k. split; auto. destruct (Nat.eq_dec k c); [subst; lra|lia]. }
      exists k'. repeat split; auto; try lia. intros j Hj.
      destruct (Nat.eq_dec j c) as [->|]; [auto|]. apply H3. lia.
    + exists c. repeat split; auto; try lia.
      destruct fuel as [|fuel]; [lia|]. cbn [qpois_search].
      change (leb (Fin (f c)) (Fin p)) with (Rleb (f c) p).
      rewrite (proj2 (Rleb_false (f c) p) Hc).
      rewrite (proj2 (Z.ltb_lt 0 _)) by lia. 
      change (Some (Fin (IZR (Z.of_nat (Datatypes.S c) - 1))) = Some (Fin (IZR (Z.of_nat c)))).
      now replace (Z.of_nat (Datatypes.S c) - 1)%Z with (Z.of_nat c) by lia.
Qed.
End Pois.

Notation G r := (sum_f_R0 (pois_pmf r)).
Lemma pois_exceeds r p : p < 1 -> exists k, p < G r k.
Proof.
  intros Hp. destruct (pois_sum_to_1 r (1 - p) ltac:(lra)) as [K HK].
  exists K. specialize (HK K (le_n _)). unfold R_dist in HK. apply Rabs_def2 in HK. lra.
Qed.
Lemma G_mono r a b : 0 <= r -> (a <= b)%nat -> G r a <= G r b.
Proof. intros. apply sum_mono; auto. intros. now apply pois_pmf_nonneg. Qed.

Section IG.
Hypothesis IG : incgamma_int_ok S.

Lemma qpois_search_total r p v (c : nat) : 0 <= r -> p < 1 ->
  exists fuel res, qpois_search (N:=NS) fuel (Fin p) (Fin r) (Fin v) (Z.of_nat c) = Some res.
Proof.
  intros Hr Hp. destruct (Rle_lt_dec v p) as [Hv|Hv].
  - destruct (pois_exceeds r p Hp) as [K HK].
    destruct (qpois_search_spec r (G r) (fun k => ppois_val S k r false IG Hr) p K c v (K + 2) Hv)
      as (k & _ & _ & _ & E); [|lia|eauto].
    exists (Nat.max c K). split; [lia|]. pose proof (G_mono r K (Nat.max c K) Hr ltac:(lia)). lra.
  - exists 1%nat. cbn [qpois_search]. change (leb (Fin v) (Fin p)) with (Rleb v p).
    rewrite (proj2 (Rleb_false v p) Hv). destruct (0 <? Z.of_nat c)%Z; eauto.
Qed.
Lemma qpois_total tr r p : 0 <= r -> 0 <= p <= 1 ->
  (11 <= r -> exists s, (0 <= s)%Z /\ tr (qpois_normal_approx (N:=NS) (Fin p) (Fin r)) = Some s) ->
  exists fuel res, qpois_run (N:=NS) tr fuel (Fin p) (Fin r) = Some res.
Proof.
  intros Hr Hp Htr. unfold qpois_run. un_cls. er_arith. rdecide. refold S.
  destruct (Rlt_dec p 1) as [Hp1|Hp1].
  2:{ assert (p = 1) by lra; subst. rdecide. exists 0%nat.
      destruct (Rltb r (sf_eps S)); eauto. }
  destruct (Reqb p 0); [exists 0%nat; eauto|].
  destruct (Rltb r (sf_eps S)); [exists 0%nat; eauto|]. rdecide.
  rdec_split.
  - apply (qpois_search_total r p 0 0 Hr Hp1).
  - destruct (Htr C) as (s & Hs & E). rewrite E. unfold qpois_search_begin.
    rewrite <- (Z2Nat.id s Hs). rewrite ppois_val by auto. unfold val.
    now apply qpois_search_total.
Qed.
(** below rate 11 the search finds the smallest k whose CDF exceeds p *)
Lemma qpois_small tr r p : 0 < r < 11 -> sf_eps S <= r -> 0 < p < 1 ->
  exists fuel k, qpois_run (N:=NS) tr fuel (Fin p) (Fin r) = Some (Fin (IZR k)) /\
  is_strict_quantile (fun j => ppois (N:=NS) j (Fin r) false) (fun j => 0 <= j)%Z (Fin p) k.
Proof.
  intros Hr He Hp. assert (Hr0 : 0 <= r) by lra. destruct (pois_exceeds r p ltac:(lra)) as [K HK].
  destruct (qpois_search_spec r (G r) (fun k => ppois_val S k r false IG Hr0) p K 0 0 (K + 2))
    as (k & _ & H2 & H3 & E); [lra|exists K; split; [lia|auto]|lia|].
  exists (K + 2)%nat, (Z.of_nat k). unfold qpois_run. un_cls. er_arith. rdecide. refold S.
  split; [exact E|]. repeat split; [lia| |].
  - rewrite ppois_val by (auto; lra). now apply Elt_Fin.
  - intros j Hj Hjk. replace j with (Z.of_nat (Z.to_nat j)) by lia.
    rewrite ppois_val by (auto; lra). apply Ele_Fin, H3. lia.
Qed.
(** at or above rate 11 the same holds when the starting point has CDF at most p *)
Lemma qpois_large tr r p s : 11 <= r -> sf_eps S <= r -> 0 < p < 1 ->
  tr (qpois_normal_approx (N:=NS) (Fin p) (Fin r)) = Some s -> (0 <= s)%Z ->
  Ele (ppois (N:=NS) s (Fin r) false) (Fin p) ->
  exists fuel k, qpois_run (N:=NS) tr fuel (Fin p) (Fin r) = Some (Fin (IZR k)) /\
  is_strict_quantile (fun j => ppois (N:=NS) j (Fin r) false) (fun j => 0 <= j)%Z (Fin p) k.
Proof.
  intros Hr He Hp Ht Hs Hle. assert (Hr0 : 0 <= r) by lra. destruct (pois_exceeds r p ltac:(lra)) as [K HK].
  rewrite <- (Z2Nat.id s Hs) in *. set (c := Z.to_nat s) in *.
  rewrite ppois_val in Hle by (auto; lra). apply Ele_Fin in Hle.
  destruct (qpois_search_spec r (G r) (fun k => ppois_val S k r false IG Hr0) p K c (G r c) (K + 2))
    as (k & H1 & H2 & H3 & E); [auto| |lia|].
  { exists (Nat.max c K). split; [lia|].
    pose proof (G_mono r K (Nat.max c K) ltac:(lra) ltac:(lia)). lra. }
  exists (K + 2)%nat, (Z.of_nat k). unfold qpois_run. un_cls. er_arith. rdecide. refold S.
  rewrite Ht. unfold qpois_search_begin. rewrite ppois_val by (auto; lra).
  split; [exact E|]. repeat split; [lia| |].
  - rewrite ppois_val by (auto; lra). now apply Elt_Fin.
  - intros j Hj Hjk. replace j with (Z.of_nat (Z.to_nat j)) by lia.
    rewrite ppois_val by (auto; lra). apply Ele_Fin.
    destruct (le_lt_dec c (Z.to_nat j)) as [Hc|Hc].
    + apply H3. lia.
    + pose proof (G_mono r (Z.to_nat j) c ltac:(lra) ltac:(lia)). lra.
Qed.
(** the starting point itself may be wrong: if its CDF exceeds p the answer is
    the point before it, whatever its CDF is *)
Lemma qpois_large_off tr r p s : 11 <= r -> sf_eps S <= r -> 0 < p < 1 ->
  tr (qpois_normal_approx (N:=NS) (Fin p) (Fin r)) = Some s -> (0 < s)%Z ->
  Elt (Fin p) (ppois (N:=NS) s (Fin r) false) ->
  qpois_run (N:=NS) tr 1 (Fin p) (Fin r) = Some (Fin (IZR (s - 1))).
Proof.
  intros Hr He Hp Ht Hs Hlt. unfold qpois_run. un_cls. er_arith. rdecide. refold S.
  rewrite Ht. unfold qpois_search_begin. rewrite <- (Z2Nat.id s ltac:(lia)) in *.
  rewrite ppois_val in * by (auto; lra). unfold val in *. apply Elt_Fin in Hlt.
  cbn [qpois_search].
  match goal with |- context [leb (Fin ?a) (Fin ?b)] =>
    change (leb (Fin a) (Fin b)) with (Rleb a b); rewrite (proj2 (Rleb_false a b) Hlt) end.
  rewrite (proj2 (Z.ltb_lt 0 _)) by lia. reflexivity.
Qed.
Lemma G_lt_1 r k : 0 < r -> G r k < 1.
Proof.
  intros Hr. destruct (Rlt_dec (G r k) 1) as [|Hn]; auto. exfalso.
  assert (Hpos : 0 < pois_pmf r (Datatypes.S k)).
  { unfold pois_pmf. apply Rdiv_lt_0_compat; [|apply lt_0_INR, lt_O_fact].
    apply Rmult_lt_0_compat; [now apply pow_lt|apply exp_pos]. }
  destruct (pois_sum_to_1 r (pois_pmf r (Datatypes.S k)) Hpos) as [K HK].
  specialize (HK (Nat.max K (Datatypes.S k)) ltac:(lia)).
  pose proof (G_mono r (Datatypes.S k) (Nat.max K (Datatypes.S k)) ltac:(lra) ltac:(lia)) as Hm.
  cbn [sum_f_R0] in Hm. unfold R_dist in HK. apply Rabs_def2 in HK. lra.
Qed.
(** ties: the quantile of an attained probability is one too large *)
Lemma qpois_tie tr r (k : nat) : 0 < r < 11 -> sf_eps S <= r ->
  exists p, ppois (N:=NS) (Z.of_nat k) (Fin r) false = Fin p /\ 0 < p < 1 /\
  exists fuel, qpois_run (N:=NS) tr fuel (Fin p) (Fin r) = Some (Fin (INR k + 1)).
Proof.
  intros Hr He. exists (G r k). rewrite ppois_val by (auto; lra). split; [auto|].
  assert (Hpos : forall j, 0 < pois_pmf r j).
  { intros. unfold pois_pmf. apply Rdiv_lt_0_compat; [|apply lt_0_INR, lt_O_fact].
    apply Rmult_lt_0_compat; [apply pow_lt; lra|apply exp_pos]. }
  assert (Hp : 0 < G r k < 1).
  { split; [|apply G_lt_1; lra]. pose proof (G_mono r 0 k ltac:(lra) ltac:(lia)).
    specialize (Hpos 0%nat). cbn [sum_f_R0] in *. lra. }
  split; [auto|].
  destruct (qpois_small tr r (G r k) Hr He Hp) as (fuel & q & E & Hq0 & Hq1 & Hq2).
  exists fuel. rewrite E. do 2 f_equal. rewrite <- IZR_of_nat, <- plus_IZR. apply f_equal.
  replace q with (Z.of_nat (Z.to_nat q)) in * by lia.
  rewrite ppois_val in Hq1 by (auto; lra). apply Elt_Fin in Hq1.
  assert (Z.to_nat q > k)%nat.
  { destruct (le_lt_dec (Z.to_nat q) k) as [Hle|]; auto.
    pose proof (G_mono r _ _ ltac:(lra) Hle). lra. }
  destruct (Z.eq_dec (Z.of_nat (Z.to_nat q)) (Z.of_nat k + 1)) as [|Hne]; auto.
  specialize (Hq2 (Z.of_nat (Datatypes.S k)) ltac:(lia) ltac:(lia)).
  rewrite ppois_val in Hq2 by (auto; lra). apply Ele_Fin in Hq2. cbn [sum_f_R0] in Hq2.
  specialize (Hpos (Datatypes.S k)). lra.
Qed.
End IG.

(** an infinite rate passes the parameter check and the search never stops *)
Lemma qpois_inf_search p v c : 0 < p -> v <= p -> forall fuel,
  qpois_search (N:=NS) fuel (Fin p) PInf (Fin v) c = None.
Proof.
  intros Hp Hv fuel. revert v c Hv. induction fuel as [|fuel IH]; intros v c Hv; [reflexivity|].
  cbn [qpois_search]. change (leb (Fin v) (Fin p)) with (Rleb v p).
  rewrite (proj2 (Rleb_true v p) Hv).
  assert (ppois (N:=NS) c PInf false = Fin 0) as ->; [|apply IH; lra].
  unfold ppois. un_cls. cbn [eltb]. now destruct (c <? 0)%Z.
Qed.
Lemma qpois_inf tr p : 0 < p < 1 -> trunc_ok tr -> forall fuel,
  qpois_run (N:=NS) tr fuel (Fin p) PInf = None.
Proof.
  intros Hp Ht fuel. unfold qpois_run. un_cls. cbn [eltb]. er_arith. rdecide. refold S.
  assert (E : qpois_normal_approx (N:=NS) (Fin p) PInf = Fin 0).
  { unfold qpois_normal_approx, qnorm. un_cls. cbn [esqrt eltb eisnan]. er_arith. rdecide.
    reflexivity. }
  rewrite E, Ht by (cbn; lra).
  unfold qpois_search_begin.
  assert (ppois (N:=NS) (Int_part 0) PInf false = Fin 0) as ->.
  { unfold ppois. un_cls. cbn [eltb]. now destruct (Int_part 0 <? 0)%Z. }
  apply qpois_inf_search; lra.
Qed.

(** *** Statements of C20-C22 *)
Lemma binomial_sums (n : nat) p : 0 <= p <= 1 ->
  exists f : nat -> R,
    (forall k, dbinom (N:=NS) (Z.of_nat k) (Z.of_nat n) (Fin p) false = Fin (f k)) /\
    (forall k, 0 <= f k) /\ (forall k, (n < k)%nat -> f k = 0) /\
    sum_f_R0 f n = 1 /\
    forall x, pbinom (N:=NS) (Z.of_nat x) (Z.of_nat n) (Fin p) false = Fin (sum_f_R0 f x).
Proof.
  intros Hp. exists (binom_pmf n p). repeat split.
  - intros. now apply dbinom_val.
  - intros. now apply binom_pmf_nonneg.
  - intros k Hk. unfold binom_pmf. now rewrite (proj2 (Nat.leb_gt k n) Hk).
  - apply binom_sum.
  - intros. now apply pbinom_val.
Qed.
Lemma poisson_sums : lgamma_int_ok S -> incgamma_int_ok S -> forall r, 0 <= r ->
  exists f : nat -> R,
    (forall k, dpois (N:=NS) (Z.of_nat k) (Fin r) false = Fin (f k)) /\
    (forall k, 0 <= f k) /\
    (forall x, ppois (N:=NS) (Z.of_nat x) (Fin r) false = Fin (sum_f_R0 f x)) /\
    infinite_sum f 1.
Proof.
  intros LG IG r Hr. exists (pois_pmf r). repeat split.
  - intros. now apply dpois_val.
  - intros. now apply pois_pmf_nonneg.
  - intros. now apply ppois_val.
  - apply pois_sum_to_1.
Qed.
Lemma bern_sums p : 0 <= p <= 1 ->
  exists f : Z -> R,
    (forall z, dbern (N:=NS) z (Fin p) false = Fin (f z)) /\
    (forall z, 0 <= f z) /\ f 0%Z + f 1%Z = 1 /\
    (forall z, z <> 0%Z -> z <> 1%Z -> f z = 0) /\
    (forall x, (x < 0)%Z -> pbern (N:=NS) x (Fin p) false = Fin 0) /\
    forall lo (n : nat), (lo <= 0)%Z ->
      pbern (N:=NS) (lo + Z.of_nat n) (Fin p) false
      = Fin (sum_f_R0 (fun i => f (lo + Z.of_nat i)%Z) n).
Proof.
  intros Hp. exists (bern_pmf p). repeat split.
  - intros. now apply dbern_val.
  - intros z. unfold bern_pmf. destruct (z =? 1)%Z, (z =? 0)%Z; lra.
  - unfold bern_pmf. cbn. lra.
  - intros z H0 H1. unfold bern_pmf. now rewrite (proj2 (Z.eqb_neq z 1) H1), (proj2 (Z.eqb_neq z 0) H0).
  - intros. now apply pbern_below.
  - intros lo n Hlo. rewrite bern_sum by auto. now apply pbern_val.
Qed.
Lemma radem_sums p : 0 <= p <= 1 ->
  exists f : Z -> R,
    (forall z, dradem (N:=NS) z (Fin p) false = Fin (f z)) /\
    (forall z, 0 <= f z) /\ f (-1)%Z + f 1%Z = 1 /\
    (forall z, z <> (-1)%Z -> z <> 1%Z -> f z = 0) /\
    (forall x, (x < -1)%Z -> pradem (N:=NS) x (Fin p) false = Fin 0) /\
    forall lo (n : nat), (lo <= -1)%Z ->
      pradem (N:=NS) (lo + Z.of_nat n) (Fin p) false
      = Fin (sum_f_R0 (fun i => f (lo + Z.of_nat i)%Z) n).
Proof.
  intros Hp. exists (radem_pmf p). repeat split.
  - intros. now apply dradem_val.
  - intros z. unfold radem_pmf. destruct (z =? 1)%Z, (z =? -1)%Z; lra.
  - unfold radem_pmf. cbn. lra.
  - intros z H0 H1. unfold radem_pmf. now rewrite (proj2 (Z.eqb_neq z 1) H1), (proj2 (Z.eqb_neq z (-1)) H0).
  - intros. now apply pradem_below.
  - intros lo n Hlo. rewrite radem_sum by auto. now apply pradem_val.
Qed.
End S.
