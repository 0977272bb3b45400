(** Samplers in binary64: certain events (C39), recursion depth of rgamma (C40), runif (C48). *)
From Coq Require Import ZArith Reals QArith Bool List Lra Lia.
From Verif Require Import Num Sanity ER ERTac B64 Quant Rand B64R.
From Flocq Require Import Core IEEE754.BinarySingleNaN.
Local Open Scope R_scope.

Notation fin x := (is_finite x = true).
(** nextafter(0,1) lies strictly between 0 and 1; uniform_real_distribution(a,b) with a < b returns
    a value in [a,b). *)
Record b64_rng_ok {E} (G : Rng b64 E) : Prop := {
  bok_next : fin (g_next G (bofZ 0) (bofZ 1)) /\ 0 < B2R (g_next G (bofZ 0) (bofZ 1)) < 1;
  bok_unif : forall a b e, fin a -> fin b -> B2R a < B2R b ->
    exists u e', g_unif G a b e = (u, e') /\ fin u /\ B2R a <= B2R u < B2R b
}.

Lemma b1 : B2R (bofZ 1) = 1 /\ fin (bofZ 1). Proof. apply (bofZ_R 1). cbn. lia. Qed.
Lemma b0 : B2R (bofZ 0) = 0 /\ fin (bofZ 0). Proof. apply (bofZ_R 0). cbn. lia. Qed.

(** a finite number is its real value, except for the sign of zero *)
Lemma b64_inj (x y : b64) : fin x -> fin y -> B2R x = B2R y -> B2R x <> 0 -> x = y.
Proof.
  intros Fx Fy H N. apply B2R_inj; [| |exact H].
  - destruct x; cbn [is_finite] in Fx; try discriminate Fx; [exfalso; apply N; reflexivity|reflexivity].
  - rewrite H in N. destruct y; cbn [is_finite] in Fy; try discriminate Fy; [exfalso; apply N; reflexivity|reflexivity].
Qed.

Section S.
Variable F : TF.
Notation NB := (B64_Num F).
Context {E : Type} (G : Rng b64 E) (OK : b64_rng_ok G).

Lemma runif01_b e : exists u e', runif01 (N:=NB) G e = (u, e') /\ fin u /\ 0 < B2R u < 1.
Proof.
  destruct (bok_next G OK) as (Fc & C). destruct b1 as [R1 F1].
  destruct (bok_unif G OK _ (bofZ 1) e Fc F1) as (u & e' & H & Fu & U); [rewrite R1; lra|].
  exists u, e'. split; [|split; [auto|rewrite R1 in U; lra]].
  unfold runif01, runif. replace (unif_sanity2 (N:=NB) _ _) with true by (symmetry; vm_compute; reflexivity).
  exact H.
Qed.
Lemma rbern_b pr e : fin pr -> 0 <= B2R pr <= 1 -> exists (u : b64) e', fin u /\ 0 < B2R u < 1 /\
  rbern (N:=NB) G pr e = ((if Rle_dec (B2R u) (B2R pr) then bofZ 1 else bofZ 0), e').
Proof.
  intros Fp Hp. destruct (runif01_b e) as (u & e' & H & Fu & U). exists u, e'. split; auto. split; auto.
  unfold rbern. destruct b1 as [R1 F1]. destruct b0 as [R0 F0].
  replace (bern_sanity (N:=NB) pr) with true.
  - cbn [negb]. rewrite H. change (leb (Num:=NB) u pr) with (Bleb u pr).
    destruct (Bleb u pr) eqn:L; [apply bleb_R in L|apply bleb_R_f in L]; auto; destruct Rle_dec; auto; lra.
  - symmetry. unfold bern_sanity. change (Num.is_nan (Num:=NB) pr) with (bisnan pr).
    replace (bisnan pr) with false by (destruct pr; cbn in *; auto; discriminate).
    change (ltb (Num:=NB) pr (ofZ (Num:=NB) 0)) with (Bltb pr (bofZ 0)).
    change (ltb (Num:=NB) (ofZ (Num:=NB) 1) pr) with (Bltb (bofZ 1) pr).
    rewrite (proj2 (bltb_R_f pr (bofZ 0) Fp F0)) by lra. rewrite (proj2 (bltb_R_f (bofZ 1) pr F1 Fp)) by lra.
    destruct pr; try discriminate Fp; reflexivity.
Qed.
Lemma rradem_b pr e : fin pr -> 0 <= B2R pr <= 1 -> exists (u : b64) e', fin u /\ 0 < B2R u < 1 /\
  rradem (N:=NB) G pr e = ((if Rle_dec (B2R u) (B2R pr) then bofZ 1 else bofZ (-1)), e').
Proof.
  intros Fp Hp. destruct (runif01_b e) as (u & e' & H & Fu & U). exists u, e'. split; auto. split; auto.
  unfold rradem. destruct b1 as [R1 F1]. destruct b0 as [R0 F0].
  replace (radem_sanity (N:=NB) pr) with true.
  - cbn [negb]. rewrite H. change (leb (Num:=NB) u pr) with (Bleb u pr).
    destruct (Bleb u pr) eqn:L; [apply bleb_R in L|apply bleb_R_f in L]; auto; destruct Rle_dec; auto; lra.
  - symmetry. unfold radem_sanity, bern_sanity. change (Num.is_nan (Num:=NB) pr) with (bisnan pr).
    replace (bisnan pr) with false by (destruct pr; cbn in *; auto; discriminate).
    change (ltb (Num:=NB) pr (ofZ (Num:=NB) 0)) with (Bltb pr (bofZ 0)).
    change (ltb (Num:=NB) (ofZ (Num:=NB) 1) pr) with (Bltb (bofZ 1) pr).
    rewrite (proj2 (bltb_R_f pr (bofZ 0) Fp F0)) by lra. rewrite (proj2 (bltb_R_f (bofZ 1) pr F1 Fp)) by lra.
    destruct pr; try discriminate Fp; reflexivity.
Qed.
Lemma rbern_b0 e : exists e', rbern (N:=NB) G (bofZ 0) e = (bofZ 0, e').
Proof.
  destruct b0 as [R0 F0]. destruct (rbern_b (bofZ 0) e F0) as (u & e' & Fu & U & H); [rewrite R0; lra|].
  exists e'. rewrite H, R0. clear H. destruct Rle_dec; [exfalso; lra|reflexivity].
Qed.
Lemma rbern_b1 e : exists e', rbern (N:=NB) G (bofZ 1) e = (bofZ 1, e').
Proof.
  destruct b1 as [R1 F1]. destruct (rbern_b (bofZ 1) e F1) as (u & e' & Fu & U & H); [rewrite R1; lra|].
  exists e'. rewrite H, R1. clear H. destruct Rle_dec; [reflexivity|exfalso; lra].
Qed.
Lemma rradem_b0 e : exists e', rradem (N:=NB) G (bofZ 0) e = (bofZ (-1), e').
Proof.
  destruct b0 as [R0 F0]. destruct (rradem_b (bofZ 0) e F0) as (u & e' & Fu & U & H); [rewrite R0; lra|].
  exists e'. rewrite H, R0. clear H. destruct Rle_dec; [exfalso; lra|reflexivity].
Qed.
Lemma rradem_b1 e : exists e', rradem (N:=NB) G (bofZ 1) e = (bofZ 1, e').
Proof.
  destruct b1 as [R1 F1]. destruct (rradem_b (bofZ 1) e F1) as (u & e' & Fu & U & H); [rewrite R1; lra|].
  exists e'. rewrite H, R1. clear H. destruct Rle_dec; [reflexivity|exfalso; lra].
Qed.

(** ** rbinom *)
Lemma binom_ok n p : (0 <= n)%Z -> p = bofZ 0 \/ p = bofZ 1 -> negb (binom_sanity (N:=NB) n p) = false.
Proof.
  intros Hn H. unfold binom_sanity. rewrite (proj2 (Z.ltb_ge n 0)) by lia.
  destruct H as [-> | ->]; vm_compute; reflexivity.
Qed.
Lemma loop0 n : forall e, exists e', rbinom_loop (N:=NB) G n (bofZ 0) (bofZ 0) e = (bofZ 0, e').
Proof.
  induction n as [|n IH]; intros e; cbn [rbinom_loop]; eauto. destruct (rbern_b0 e) as [e' ->].
  change (add (Num:=NB) (bofZ 0) (bofZ 0)) with (bofZ 0). apply IH.
Qed.
Lemma rbinom_b0 n e : (0 <= n)%Z -> exists e', rbinom (N:=NB) G n (bofZ 0) e = (bofZ 0, e').
Proof. intros Hn. unfold rbinom. rewrite binom_ok by auto. apply loop0. Qed.

Lemma add_one k : (0 <= k < 2 ^ 53)%Z -> badd (bofZ k) (bofZ 1) = bofZ (k + 1).
Proof.
  intros Hk. destruct (bofZ_R k ltac:(lia)) as [Rk Fk]. destruct b1 as [R1 F1].
  destruct (bofZ_R (k + 1) ltac:(lia)) as [Rs Fs].
  assert (Q : rnd (B2R (bofZ k) + B2R (bofZ 1)) = IZR (k + 1)).
  { rewrite Rk, R1, <- plus_IZR. apply rnd_Z. lia. }
  destruct (badd_R (bofZ k) (bofZ 1) Fk F1) as [RA FA].
  { rewrite Q. rewrite <- abs_IZR. apply maxR_big. lia. }
  apply b64_inj; auto; rewrite RA, Q; [now rewrite Rs|]. apply not_0_IZR. lia.
Qed.
Lemma loop1 n : forall k e, (0 <= k)%Z -> (k + Z.of_nat n <= 2 ^ 53)%Z ->
  exists e', rbinom_loop (N:=NB) G n (bofZ 1) (bofZ k) e = (bofZ (k + Z.of_nat n), e').
Proof.
  induction n as [|n IH]; intros k e Hk Hn; cbn [rbinom_loop].
  - exists e. rewrite Z.add_0_r. auto.
  - destruct (rbern_b1 e) as [e' ->]. change (add (Num:=NB) (bofZ k) (bofZ 1)) with (badd (bofZ k) (bofZ 1)).
    rewrite add_one by lia. destruct (IH (k + 1)%Z e' ltac:(lia) ltac:(lia)) as [e2 ->]. exists e2. do 2 f_equal. lia.
Qed.
Lemma rbinom_b1 n e : (0 <= n <= 2 ^ 53)%Z -> exists e', rbinom (N:=NB) G n (bofZ 1) e = (bofZ n, e').
Proof.
  intros Hn. unfold rbinom. rewrite binom_ok by (auto; lia). change (ofZ (Num:=NB) 0) with (bofZ 0).
  destruct (loop1 (Z.to_nat n) 0 e ltac:(lia) ltac:(lia)) as [e' ->]. exists e'. do 2 f_equal. lia.
Qed.
(** Beyond 2^53 the count no longer grows. *)
Lemma stuck : badd (bofZ (2 ^ 53)) (bofZ 1) = bofZ (2 ^ 53).
Proof. apply B2SF_inj. vm_compute. reflexivity. Qed.
Lemma loop_stuck n : forall e, exists e', rbinom_loop (N:=NB) G n (bofZ 1) (bofZ (2 ^ 53)) e = (bofZ (2 ^ 53), e').
Proof.
  induction n as [|n IH]; intros e; cbn [rbinom_loop]; eauto. destruct (rbern_b1 e) as [e' ->].
  change (add (Num:=NB) (bofZ (2 ^ 53)) (bofZ 1)) with (badd (bofZ (2 ^ 53)) (bofZ 1)). rewrite stuck. apply IH.
Qed.
Lemma loop_app (a b : nat) p : forall r e, rbinom_loop (N:=NB) G (a + b) p r e =
  let '(r', e') := rbinom_loop (N:=NB) G a p r e in rbinom_loop (N:=NB) G b p r' e'.
Proof.
  induction a as [|a IH]; intros r e; cbn [rbinom_loop Nat.add]; auto.
  destruct (rbern G p e) as [x e']. apply IH.
Qed.
Lemma rbinom_saturates n e : (2 ^ 53 <= n)%Z -> exists e', rbinom (N:=NB) G n (bofZ 1) e = (bofZ (2 ^ 53), e').
Proof.
  intros Hn. unfold rbinom. rewrite binom_ok by (auto; lia). change (ofZ (Num:=NB) 0) with (bofZ 0).
  replace (Z.to_nat n) with (Z.to_nat (2 ^ 53) + Z.to_nat (n - 2 ^ 53))%nat by lia. rewrite loop_app.
  destruct (loop1 (Z.to_nat (2 ^ 53)) 0 e ltac:(lia) ltac:(lia)) as [e1 H]. rewrite H.
  replace (0 + Z.of_nat (Z.to_nat (2 ^ 53)))%Z with (2 ^ 53)%Z by lia. apply loop_stuck.
Qed.
Lemma rbinom_b1_refuted e : exists n v e', (0 <= n < 2 ^ 63)%Z /\ rbinom (N:=NB) G n (bofZ 1) e = (v, e') /\
  B2R v = IZR n - 2.
Proof.
  destruct (rbinom_saturates (2 ^ 53 + 2) e ltac:(lia)) as [e' H]. exists (2 ^ 53 + 2)%Z, (bofZ (2 ^ 53)), e'.
  split; [lia|]. split; auto. rewrite (proj1 (bofZ_R (2 ^ 53) ltac:(lia))), plus_IZR. lra.
Qed.
End S.

(** ** runif *)
(** nextafter(a,b) for finite a < b is the next double above a *)
Definition next_ok {E} (G : Rng b64 E) (a b : b64) : Prop :=
  fin (g_next G a b) /\ B2R (g_next G a b) = succ radix2 (SpecFloat.fexp 53 1024) (B2R a).

Lemma no_double_between (a b x : b64) : fin a ->
  B2R b = succ radix2 (SpecFloat.fexp 53 1024) (B2R a) -> ~ (B2R a < B2R x < B2R b).
Proof.
  intros Fa H [H1 H2]. rewrite H in H2.
  apply (Rlt_not_le _ _ H2). apply succ_le_lt; auto with typeclass_instances; apply generic_format_B2R.
Qed.

Section U.
Variable F : TF.
Notation NB := (B64_Num F).
Context {E : Type} (G : Rng b64 E).

Lemma unif_ok a b : fin a -> fin b -> B2R a < B2R b -> negb (unif_sanity2 (N:=NB) a b) = false.
Proof.
  intros Fa Fb H. unfold unif_sanity2.
  change (ltb (Num:=NB)) with (Bltb (prec:=53) (emax:=1024)).
  assert (N : forall x : b64, fin x -> Num.is_nan (Num:=NB) x = false) by (intros []; cbn; auto; discriminate).
  unfold any_nan2. rewrite !N by auto. cbn [orb].
  change (leb (Num:=NB) b a) with (Bleb b a). now rewrite (proj2 (bleb_R_f b a Fb Fa)) by lra.
Qed.
Lemma runif_strict a b e u e' : fin a -> fin b -> B2R a < B2R b -> next_ok G a b ->
  g_unif G (g_next G a b) b e = (u, e') -> B2R (g_next G a b) <= B2R u < B2R b ->
  runif (N:=NB) G a b e = (u, e') /\ B2R a < B2R u < B2R b.
Proof.
  intros Fa Fb H [Fn Hn] Hu U. unfold runif. rewrite unif_ok by auto. split; auto.
  pose proof (succ_gt_id radix2 (SpecFloat.fexp 53 1024) (B2R a)) as Hs. split; [|lra].
  destruct (Req_dec (B2R a) 0) as [Z0|Z0].
  - rewrite Hn in U. eapply Rlt_le_trans; [|apply U]. rewrite Z0, succ_0. change (SpecFloat.fexp 53 1024) with (FLT_exp (-1074) 53). rewrite ulp_FLT_0; [apply bpow_gt_0|reflexivity].
  - rewrite Hn in U. specialize (Hs Z0). lra.
Qed.
End U.
