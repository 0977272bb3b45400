(** Lemmas about [Ints.v]: the checked functions return the value of the unchecked ones, and
    exactly when they do not. *)
From Coq Require Import ZArith Bool List Lia.
From Verif Require Import Num Sanity Prob Dens Quant Vec Ints Discrete.
Import ListNotations.
Local Open Scope Z_scope.

Definition ll (z : Z) : Prop := - 2 ^ 63 <= z <= 2 ^ 63 - 1.
Lemma chk_ok z : ll z -> chk z = Ok z.
Proof.
  intros H. unfold ll in H. unfold chk, in64, LMIN, LMAX.
  rewrite (proj2 (Z.leb_le _ _)), (proj2 (Z.leb_le _ _)) by lia. reflexivity.
Qed.
Lemma chk_bad z : ~ ll z -> chk z = UB.
Proof.
  intros H. unfold ll in H. unfold chk, in64, LMIN, LMAX.
  destruct (Z.leb_spec (- 2 ^ 63) z), (Z.leb_spec z (2 ^ 63 - 1)); cbn; auto. lia.
Qed.
Lemma zfact_small n : (n <= 15)%nat -> ll (zfact n).
Proof. intros H. unfold ll. do 16 (destruct n as [|n]; [vm_compute; split; discriminate|]). lia. Qed.

Section Gen.
Context {T : Type} {N : Num T}.

Lemma dpois_chk_ok x (rate : T) lf : ll x -> x <> 2 ^ 63 - 1 -> dpois_chk x rate lf = Ok (dpois x rate lf).
Proof.
  intros H H'. unfold ll in H. unfold dpois_chk, dpois, dpois_log_compute_chk, dpois_log_compute.
  destruct (pois_sanity rate); cbn [negb]; [|reflexivity].
  destruct (x <? 0); [reflexivity|]. destruct (eqb rate (ofZ 0)); [now destruct (x =? 0)|].
  destruct (is_posinf rate); [reflexivity|]. rewrite chk_ok by (unfold ll; lia). reflexivity.
Qed.
(** the parameters for which the density is evaluated by its formula *)
Definition dpois_formula (rate : T) : Prop :=
  pois_sanity rate = true /\ eqb rate (ofZ 0) = false /\ is_posinf rate = false.
Lemma dpois_chk_max (rate : T) lf : dpois_chk (2 ^ 63 - 1) rate lf = UB <-> dpois_formula rate.
Proof.
  unfold dpois_chk, dpois_formula, dpois_log_compute_chk. rewrite chk_bad by (unfold ll; lia).
  change (2 ^ 63 - 1 <? 0) with false. change (2 ^ 63 - 1 =? 0) with false.
  destruct (pois_sanity rate), (eqb rate (ofZ 0)), (is_posinf rate); cbn [negb obind];
    split; intros H; try discriminate; try (destruct H as (? & ? & ?); discriminate); auto.
Qed.

Lemma ppois_recur_chk_ok x (rate : T) : 0 <= x <= 15 -> forall fuel r, 0 <= r <= x ->
  ppois_recur_chk fuel x rate r = option_map Ok (ppois_recur fuel x rate r).
Proof.
  intros Hx. induction fuel as [|fuel IH]; intros r Hr; [reflexivity|]. cbn [ppois_recur_chk ppois_recur].
  destruct (x =? 0) eqn:E0; [reflexivity|]. destruct (x =? 1) eqn:E1; [reflexivity|].
  apply Z.eqb_neq in E0. apply Z.eqb_neq in E1.
  assert (F : ppois_term rate r = Ok (div (powZ rate r) (factorial r))).
  { unfold ppois_term. rewrite chk_ok; [reflexivity|]. apply zfact_small. lia. }
  assert (C : r < x -> chk (r + 1) = Ok (r + 1)) by (intros; apply chk_ok; unfold ll; lia).
  destruct (r =? 0) eqn:Er.
  - apply Z.eqb_eq in Er. rewrite C by lia. cbn [rbind rlift]. rewrite IH by lia.
    now destruct (ppois_recur fuel x rate (r + 1)).
  - destruct (r <? x) eqn:El.
    + apply Z.ltb_lt in El. rewrite F, C by lia. cbn [rbind rlift]. rewrite IH by lia.
      now destruct (ppois_recur fuel x rate (r + 1)).
    + now rewrite F.
Qed.
Lemma ppois_chk_ok x (rate : T) lf : ll x -> x <> 2 ^ 63 - 1 -> ppois_chk x rate lf = Ok (ppois x rate lf).
Proof.
  intros H H'. unfold ll in H. unfold ppois_chk, ppois, ppois_compute_chk, ppois_compute.
  destruct (pois_sanity rate); cbn [negb]; [|reflexivity].
  destruct (x <? 0) eqn:E0; [reflexivity|]. destruct (is_posinf rate); [reflexivity|].
  apply Z.ltb_ge in E0.
  destruct (ltb (ofZ 10) rate || (15 <? x))%bool eqn:Eb.
  - rewrite chk_ok by (unfold ll; lia). reflexivity.
  - apply orb_false_iff in Eb. destruct Eb as [_ Eb]. apply Z.ltb_ge in Eb.
    rewrite ppois_recur_chk_ok by lia. now destruct (ppois_recur (Z.to_nat x + 2) x rate 0).
Qed.
Lemma ppois_chk_max (rate : T) lf : ppois_chk (2 ^ 63 - 1) rate lf = UB <->
  pois_sanity rate = true /\ is_posinf rate = false.
Proof.
  unfold ppois_chk, ppois_compute_chk. rewrite chk_bad by (unfold ll; lia).
  change (2 ^ 63 - 1 <? 0) with false. change (15 <? 2 ^ 63 - 1) with true. rewrite orb_true_r.
  destruct (pois_sanity rate), (is_posinf rate); cbn [negb obind];
    split; intros H; try discriminate; try (destruct H as (? & ?); discriminate); auto.
Qed.

Lemma dbinom_chk_ok x n (prob : T) lf : ll x -> ll n -> dbinom_chk x n prob lf = Ok (dbinom x n prob lf).
Proof.
  intros Hx Hn. unfold ll in *. unfold dbinom_chk, dbinom, dbinom_log_compute_chk, dbinom_log_compute.
  destruct (binom_sanity n prob); cbn [negb]; [|reflexivity].
  destruct ((x <? 0) || (n <? x))%bool eqn:Eb; [reflexivity|]. apply orb_false_iff in Eb. destruct Eb as [E1 E2].
  apply Z.ltb_ge in E1. apply Z.ltb_ge in E2.
  destruct (n =? 0); [reflexivity|]. destruct (n =? 1); [reflexivity|].
  destruct (x =? 0); [reflexivity|]. destruct (x =? n); [reflexivity|].
  rewrite chk_ok by (unfold ll; lia). reflexivity.
Qed.
Lemma pbinom_recur_chk_ok x n (prob : T) : ll n -> 0 <= x -> ll x -> forall fuel c, 0 <= c <= x ->
  pbinom_recur_chk fuel x n prob c = option_map Ok (pbinom_recur fuel x n prob c).
Proof.
  intros Hn Hx Lx. unfold ll in Lx. induction fuel as [|fuel IH]; intros c Hc; [reflexivity|].
  cbn [pbinom_recur_chk pbinom_recur]. rewrite dbinom_chk_ok by (auto; unfold ll; lia).
  destruct (c =? x) eqn:E; [reflexivity|]. apply Z.eqb_neq in E. cbn [rbind rlift].
  rewrite chk_ok by (unfold ll; lia). rewrite IH by lia. now destruct (pbinom_recur fuel x n prob (c + 1)).
Qed.
Lemma pbinom_chk_ok x n (prob : T) lf : ll x -> ll n -> pbinom_chk x n prob lf = Ok (pbinom x n prob lf).
Proof.
  intros Hx Hn. unfold pbinom_chk, pbinom.
  destruct (binom_sanity n prob); cbn [negb]; [|reflexivity].
  destruct (x <? 0) eqn:E1; [reflexivity|]. destruct (n <=? x); [reflexivity|]. destruct (n =? 1); [reflexivity|].
  apply Z.ltb_ge in E1. rewrite pbinom_recur_chk_ok by (auto; lia).
  now destruct (pbinom_recur (Z.to_nat x + 1) x n prob 0).
Qed.

Lemma qbinom_recur_chk_ok p n (prob : T) : 0 <= n < 2 ^ 63 - 1 -> binom_sanity n prob = true -> ltb (ofZ 1) p = false ->
  forall fuel value c, 0 <= c <= n + 1 -> (c = n + 1 -> ltb value p = false) ->
  qbinom_recur_chk fuel p n prob value c = option_map Ok (qbinom_recur fuel p n prob value c).
Proof.
  intros Hn Hs H1. induction fuel as [|fuel IH]; intros value c Hc Hv; [reflexivity|].
  cbn [qbinom_recur_chk qbinom_recur]. destruct (ltb value p) eqn:E.
  - assert (c <> n + 1) by (intros ->; specialize (Hv eq_refl); discriminate).
    rewrite pbinom_chk_ok by (unfold ll; lia). cbn [rbind rlift].
    rewrite chk_ok by (unfold ll; lia). apply IH; [lia|]. intros Ec.
    assert (c = n) as -> by lia. rewrite pbinom_top by (auto; lia). exact H1.
  - rewrite chk_ok by (unfold ll; lia). reflexivity.
Qed.
Lemma qbinom_run_chk_ok fuel p n (prob : T) : ll n -> n <> 2 ^ 63 - 1 ->
  qbinom_run_chk fuel p n prob = option_map Ok (qbinom_run fuel p n prob).
Proof.
  intros Hn Hm. unfold ll in Hn. unfold qbinom_run_chk, qbinom_run.
  destruct (binom_sanity n prob) eqn:Hs; cbn [negb]; [|reflexivity].
  destruct (prob_val_check p) eqn:Hp; cbn [negb]; [|reflexivity].
  destruct (eqb p (ofZ 0)); [reflexivity|]. destruct (eqb p (ofZ 1)); [reflexivity|].
  assert (N0 : 0 <= n).
  { unfold binom_sanity in Hs. destruct (is_nan prob); [discriminate|]. destruct (is_inf prob); [discriminate|].
    destruct (n <? 0) eqn:E; [discriminate|]. lia. }
  apply qbinom_recur_chk_ok; auto; try lia.
  unfold prob_val_check in Hp. destruct (is_nan p); [discriminate|]. destruct (ltb p (ofZ 0)); [discriminate|].
  now destruct (ltb (ofZ 1) p).
Qed.

Lemma qpois_search_chk_ok p (rate : T) : forall fuel value c,
  0 <= c -> c + Z.of_nat fuel <= 2 ^ 63 - 1 ->
  qpois_search_chk fuel p rate value c = option_map Ok (qpois_search fuel p rate value c).
Proof.
  induction fuel as [|fuel IH]; intros value c Hc Hf; [reflexivity|].
  cbn [qpois_search_chk qpois_search]. destruct (leb value p).
  - rewrite ppois_chk_ok by (unfold ll; lia). cbn [rbind rlift].
    rewrite chk_ok by (unfold ll; lia). apply IH; lia.
  - destruct (0 <? c) eqn:E0; [|reflexivity]. rewrite chk_ok by (unfold ll; lia). reflexivity.
Qed.
(** a checked run that ends has the value of the unchecked run, unless it is undefined *)
Lemma qpois_search_chk_sound p (rate : T) : forall fuel value c v, ll c ->
  qpois_search_chk fuel p rate value c = Some (Ok v) -> qpois_search fuel p rate value c = Some v.
Proof.
  induction fuel as [|fuel IH]; intros value c v Hc H; [discriminate|].
  cbn [qpois_search_chk qpois_search] in *. destruct (leb value p).
  - unfold ll in Hc. destruct (Z.eq_dec c (2 ^ 63 - 1)) as [E|E].
    + destruct (ppois_chk c rate false); cbn [rbind rlift] in H; [|discriminate].
      rewrite chk_bad in H by (unfold ll; lia). discriminate.
    + rewrite ppois_chk_ok in H by (auto; unfold ll; lia). cbn [rbind rlift] in H.
      rewrite chk_ok in H by (unfold ll; lia). cbn [rbind rlift] in H. apply IH in H; auto. unfold ll; lia.
  - destruct (0 <? c) eqn:E0; [|now injection H as ->].
    unfold ll in Hc. rewrite chk_ok in H by (unfold ll; lia). now injection H as ->.
Qed.
(** where the normal approximation can be converted, few enough steps do not overflow *)
Lemma qpois_run_chk_ok tr fuel p (rate : T) :
  (forall s, ltb rate (ofZ 11) = false -> tr (qpois_normal_approx p rate) = Some s -> 0 <= s /\ s + Z.of_nat fuel <= 2 ^ 63 - 1) ->
  (ltb rate (ofZ 11) = false -> tr (qpois_normal_approx p rate) <> None) ->
  (0 < fuel)%nat -> Z.of_nat fuel <= 2 ^ 63 - 1 ->
  qpois_run_chk tr fuel p rate = option_map Ok (qpois_run tr fuel p rate).
Proof.
  intros Hs Ht Hf0 Hf. unfold qpois_run_chk, qpois_run.
  destruct (pois_sanity rate); cbn [negb]; [|reflexivity].
  destruct (prob_val_check p); cbn [negb]; [|reflexivity].
  destruct (eqb p (ofZ 0)); [reflexivity|]. destruct (ltb rate epsilon); [reflexivity|].
  destruct (eqb p (ofZ 1)); [reflexivity|].
  destruct (ltb rate (ofZ 11)); [apply qpois_search_chk_ok; lia|].
  destruct (tr (qpois_normal_approx p rate)) as [s|]; [|now destruct (Ht eq_refl)].
  destruct (Hs s eq_refl eq_refl) as [S1 S2]. unfold qpois_search_begin.
  rewrite ppois_chk_ok by (unfold ll; lia). cbn [rbind rlift]. apply qpois_search_chk_ok; lia.
Qed.
Lemma qpois_run_chk_conv tr fuel p (rate : T) :
  pois_sanity rate = true -> prob_val_check p = true -> eqb p (ofZ 0) = false -> eqb p (ofZ 1) = false ->
  ltb rate epsilon = false -> ltb rate (ofZ 11) = false -> tr (qpois_normal_approx p rate) = None ->
  qpois_run_chk tr fuel p rate = Some UB.
Proof.
  intros A B C D E F G. unfold qpois_run_chk. now rewrite A, B, C, D, E, F, G.
Qed.

Lemma vec_chk_ok tr f (g : Z -> T) vals :
  (forall v, In v vals -> exists z, tr v = Some z /\ f z = Ok (g z)) ->
  exists ws, vec_chk tr f vals = Ok ws /\
    Forall2 (fun v w => exists z, tr v = Some z /\ w = g z) vals ws.
Proof.
  induction vals as [|v vs IH]; intros H; [exists []; cbn; auto|].
  destruct (H v (or_introl eq_refl)) as (z & Z1 & Z2). destruct IH as (ws & W1 & W2); [intros; apply H; now right|].
  exists (g z :: ws). cbn. rewrite Z1, Z2, W1. split; [reflexivity|]. constructor; eauto.
Qed.
Lemma vec_chk_ub tr (f : Z -> outcome T) vals : (exists v, In v vals /\ tr v = None) -> vec_chk tr f vals = UB.
Proof.
  intros (v & Hv & Ht). induction vals as [|w vs IH]; [destruct Hv|]. destruct Hv as [->|Hv]; cbn.
  - now rewrite Ht.
  - destruct (tr w); [|reflexivity]. destruct (f z); [|reflexivity]. cbn. now rewrite (IH Hv).
Qed.
Lemma vec_chk_ub_f tr (f : Z -> outcome T) vals : (exists v z, In v vals /\ tr v = Some z /\ f z = UB) -> vec_chk tr f vals = UB.
Proof.
  intros (v & z & Hv & Ht & Hf). induction vals as [|w vs IH]; [destruct Hv|]. destruct Hv as [->|Hv]; cbn.
  - now rewrite Ht, Hf.
  - destruct (tr w) as [z'|]; [|reflexivity]. destruct (f z'); [|reflexivity]. cbn. now rewrite (IH Hv).
Qed.
End Gen.
