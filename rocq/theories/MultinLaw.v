(** rmultinom: what it draws, and the distribution of the counts. *)
From Coq Require Import Reals ZArith QArith Bool List Lra Lia Psatz.
From Verif Require Import Spec SpecLaw LawB Num Sanity ER ERTac Vec Rand Seed SpecRand SpecDraw RandER RandMore Multin LawG.
Import ListNotations.
Local Open Scope R_scope.

Lemma Rsum_pos_last ps : Forall (fun p => 0 <= p) ps -> 0 < last ps 0 -> 0 < Rsum ps.
Proof.
  induction 1 as [|p l Hp Hl IH]; cbn [last Rsum]; intros H; [lra|]. destruct l as [|q l]; [cbn; lra|].
  specialize (IH H). lra.
Qed.
Lemma wins_le bs : (wins bs <= length bs)%nat.
Proof. induction bs as [|[] bs IH]; [auto|rewrite wins_true; cbn; lia|rewrite wins_false; cbn; lia]. Qed.
Lemma tosses_1 {E} (G : Rng ER E) : rng_ok G -> forall e bs e', tosses G 1 e bs e' -> wins bs = length bs.
Proof.
  intros OK e bs e'. induction 1 as [|e u e1 bs e2 D T IH]; [reflexivity|].
  destruct (ok_next G OK) as (c & Hc & C). destruct (ok_unif G OK c 1 e ltac:(lra)) as (v & e3 & Hv & V).
  unfold unit_draw in D. rewrite Hc, Hv in D. inversion D; subst. destruct Rle_dec; [|lra].
  rewrite wins_true, IH. reflexivity.
Qed.
Section ER.
Variable S : SF.
Notation NS := (ER_Num S).
Context {E D : Type} (G : Rng ER E) (OK : rng_ok G) (dev : D -> Z * D).
Lemma rbinom_draw n q e : 0 <= q <= 1 -> exists k e', (k <= n)%nat /\ binomial_draw G n q e k e' /\
  rbinom (N:=NS) G (Z.of_nat n) (Fin q) e = (Fin (INR k), e').
Proof.
  intros Hq. destruct (proj1 (rbinom_law S G OK n q Hq) e) as (bs & e' & T & L & H).
  exists (wins bs), e'. pose proof (wins_le bs). split; [lia|]. split; [exists bs; auto|exact H].
Qed.
Lemma multinom_loop_law (n : nat) : (0 < Z.of_nat n < 2 ^ 63)%Z -> forall ps c s e,
  ps <> [] -> Forall (fun p => 0 <= p) ps -> 0 < last ps 0 -> c + Rsum ps = 1 -> (s <= n)%nat ->
  exists ks e', rmultinom_loop (N:=NS) G er_to_size (Z.of_nat n) (map Fin ps) (Fin c) (Z.of_nat s) e = Ok (map (fun k => Fin (INR k)) ks, e') /\
    length ks = length ps /\ count_draws G (n - s) c ps e ks e' /\ nsum ks = (n - s)%nat.
Proof.
  intros Hn. induction ps as [|p ps IH]; intros c s e Hne Hpos Hlast Hsum Hs; [congruence|].
  assert (HS1 := Rsum_pos_last _ Hpos Hlast).
  inversion Hpos as [|? ? Hp Hps]; subst. cbn [map rmultinom_loop]. cbn [Rsum] in Hsum, HS1.
  assert (Hm : ((Z.of_nat n - Z.of_nat s) mod 2 ^ 64 = Z.of_nat (n - s))%Z) by (rewrite Z.mod_small; lia). rewrite Hm.
  assert (Hts : to_s64 (Z.of_nat (n - s)) = Z.of_nat (n - s)) by (unfold to_s64; now rewrite (proj2 (Z.ltb_lt _ _)) by lia). rewrite Hts.
  assert (Hc : 0 < 1 - c) by lra.
  replace (div (Num:=NS) (Fin p) (sub (Num:=NS) (ofZ (Num:=NS) 1) (Fin c))) with (Fin (p / (1 - c))) by (un_cls; er_arith; auto).
  assert (Hadd : forall j, add (Num:=NS) (ofZ (Num:=NS) (Z.of_nat s)) (Fin (INR j)) = Fin (IZR (Z.of_nat (s + j)))).
  { intros j. un_cls. rewrite eadd_F, <- !INR_IZR_INZ, <- plus_INR. reflexivity. }
  destruct ps as [|q ps].
  - cbn [Rsum] in Hsum. assert (E1 : p / (1 - c) = 1) by (replace (1 - c) with p by lra; field; lra).
    destruct (rbinom_draw (n - s) (p / (1 - c)) e ltac:(lra)) as (k & e1 & Hk & B & ->).
    assert (Ek : k = (n - s)%nat). { destruct B as (bs & T & L & W). rewrite E1 in T. rewrite <- W, (tosses_1 G OK _ _ _ T). exact L. }
    rewrite Hadd. rewrite er_to_size_Z by lia. cbn [map rmultinom_loop]. exists [k], e1.
    split; [reflexivity|]. split; [reflexivity|]. split; [|cbn [nsum]; lia].
    apply cd_cons with e1; [exact B|]. apply cd_nil.
  - pose proof (Rsum_pos_last _ Hps Hlast) as HS.
    assert (Hpr : 0 <= p / (1 - c) <= 1).
    { split; [apply Rmult_le_pos; [lra|]; left; now apply Rinv_0_lt_compat|]. apply (Rmult_le_reg_r (1 - c)); [lra|].
      unfold Rdiv. rewrite Rmult_assoc, Rinv_l; lra. }
    destruct (rbinom_draw (n - s) (p / (1 - c)) e Hpr) as (k & e1 & Hk & B & ->).
    rewrite Hadd. rewrite er_to_size_Z by lia. replace (add (Num:=NS) (Fin p) (Fin c)) with (Fin (c + p)) by (un_cls; rewrite eadd_F; f_equal; ring).
    destruct (IH (c + p) (s + k)%nat e1 ltac:(discriminate) Hps Hlast ltac:(lra) ltac:(lia)) as (ks & e' & -> & L & P & Q).
    exists (k :: ks), e'. split; [reflexivity|]. split; [cbn [length] in *; lia|]. split; [|cbn [nsum]; lia].
    apply cd_cons with e1; [exact B|]. replace (n - s - k)%nat with (n - (s + k))%nat by lia. exact P.
Qed.
Lemma rmultinom_draws p ps e w : let n := length (p :: ps) in
  (Z.of_nat n < 2 ^ 63)%Z -> Forall (fun p => 0 <= p) (p :: ps) -> 0 < last (p :: ps) 0 -> Rsum (p :: ps) = 1 ->
  exists k e1 ks e', rmultinom (N:=NS) G dev er_to_size (map Fin (p :: ps)) e w =
      Ok (map (fun k => Fin (INR k)) (k :: ks), e', snd (dev w)) /\
    binomial_draw G n p (g_mk G (fst (dev w))) k e1 /\ count_draws G (n - k) p ps e ks e' /\
    length (k :: ks) = n /\ nsum (k :: ks) = n.
Proof.
  intros n Hlen Hpos Hlast Hsum. unfold rmultinom. cbn [map].
  assert (HS1 := Rsum_pos_last _ Hpos Hlast).
  inversion Hpos as [|? ? Hp Hps]; subst. cbn [Rsum] in Hsum.
  assert (En : length (Fin p :: map Fin ps) = n) by (unfold n; cbn [length]; now rewrite map_length). rewrite En.
  assert (Hn : (0 < n)%nat) by (unfold n; cbn [length]; lia).
  assert (Hts : to_s64 (Z.of_nat n) = Z.of_nat n) by (unfold to_s64; now rewrite (proj2 (Z.ltb_lt _ _)) by lia). rewrite Hts.
  destruct (dev w) as [sd w1]. cbn [fst snd]. unfold rbinom_seed. destruct ps as [|q ps].
  - cbn [Rsum] in Hsum. destruct (rbinom_draw n p (g_mk G sd) ltac:(lra)) as (k & e1 & Hk & B & ->).
    assert (Ek : k = n). { destruct B as (bs & T & L & W). replace p with 1 in T by lra. rewrite <- W, (tosses_1 G OK _ _ _ T). exact L. }
    exists k, e1, [], e. split; [reflexivity|]. split; [exact B|]. split; [apply cd_nil|]. split; [reflexivity|cbn [nsum]; lia].
  - pose proof (Rsum_pos_last _ Hps Hlast) as HS. cbn [map].
    destruct (rbinom_draw n p (g_mk G sd) ltac:(lra)) as (k & e1 & Hk & B & H).
    rewrite H. cbn [fst]. rewrite INR_IZR_INZ, er_to_size_Z by lia.
    destruct (multinom_loop_law n ltac:(lia) (q :: ps) p k e ltac:(discriminate) Hps Hlast Hsum ltac:(lia)) as (ks & e' & R & L & P & Q).
    cbn [map] in R. rewrite R. exists k, e1, ks, e'. rewrite <- INR_IZR_INZ. split; [reflexivity|]. split; [exact B|]. split; [exact P|].
    split; [unfold n; cbn [length] in *; lia|]. cbn [nsum]. lia.
Qed.
End ER.

Lemma chain_val ps : forall ks n c, length ks = length ps -> nsum ks = n ->
  Forall (fun p => 0 <= p) ps -> 0 < last ps 0 -> c + Rsum ps = 1 ->
  chain_prob n c ps ks = INR (fact n) * multi_terms ps ks / (1 - c) ^ n.
Proof.
  induction ps as [|p ps IH]; intros ks n c L Hs Hpos Hlast Hsum; [cbn in Hlast; lra|].
  destruct ks as [|k ks]; [discriminate|]. cbn [length nsum] in *. cbn [chain_prob multi_terms].
  pose proof (Rsum_pos_last _ Hpos Hlast) as HS1. inversion Hpos as [|? ? Hp Hps]; subst. cbn [Rsum] in *.
  assert (Hq : 0 < 1 - c) by lra.
  unfold binom_pmf. rewrite (proj2 (Nat.leb_le k (k + nsum ks))) by lia.
  replace (k + nsum ks - k)%nat with (nsum ks) by lia.
  set (q := 1 - c) in *. assert (Hqn : forall m, q ^ m <> 0) by (intros; apply pow_nonzero; lra).
  unfold Binomial.C. replace (k + nsum ks - k)%nat with (nsum ks) by lia.
  pose proof (INR_fact_neq_0 k) as F1. pose proof (INR_fact_neq_0 (nsum ks)) as F2.
  destruct ps as [|p2 ps].
  - destruct ks; [|discriminate]. cbn [nsum chain_prob multi_terms Nat.eqb pow Rsum] in *.
    replace (p / q) with 1 by (unfold q; replace (1 - c) with p by lra; field; lra).
    replace (k + 0)%nat with k by lia. rewrite pow1. change (INR (fact 0)) with 1.
    replace q with p by (unfold q; lra). assert (p ^ k <> 0) by (apply pow_nonzero; lra). field. auto.
  - pose proof (Rsum_pos_last _ Hps Hlast) as HS.
    rewrite (IH ks (nsum ks) (c + p)); auto; [|lra].
    replace (1 - (c + p)) with (q - p) by (unfold q; ring).
    replace (1 - p / q) with ((q - p) / q) by (field; lra).
    assert (Hqp : forall m, (q - p) ^ m <> 0) by (intros; apply pow_nonzero; unfold q; lra).
    assert (PD : forall x m, (x / q) ^ m = x ^ m / q ^ m).
    { intros x m. unfold Rdiv. rewrite Rpow_mult_distr, pow_inv. reflexivity. }
    rewrite !PD, pow_add. field. repeat split; auto.
Qed.
Lemma chain_multinom ps ks : length ks = length ps -> Forall (fun p => 0 <= p) ps -> 0 < last ps 0 -> Rsum ps = 1 ->
  chain_prob (nsum ks) 0 ps ks = multinom_pmf ps ks.
Proof.
  intros L H1 H2 H3. rewrite (chain_val ps ks (nsum ks) 0) by (auto; lra). unfold multinom_pmf.
  rewrite Rminus_0_r, pow1. field.
Qed.
