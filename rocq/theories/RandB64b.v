(** binary64: recursion depth of rgamma (C40); counterexamples for runif (C48). *)
From Coq Require Import ZArith Reals QArith Bool List Lra Lia.
From Verif Require Import Num Sanity ER ERTac B64 Quant Rand MT B64R RandB64.
From Flocq Require Import Core IEEE754.BinarySingleNaN.
Import ListNotations.
Local Open Scope R_scope.

(** ** rgamma: at most two nested recursive calls, for every shape, scale, engine *)
Section S.
Variable F : TF.
Notation NB := (B64_Num F).
Context {E : Type} (G : Rng b64 E).
Notation rr := (rgamma_rec (N:=NB) G).

Definition gt1 (k : b64) : Prop := ltb (Num:=NB) (ofZ (Num:=NB) 1) k = true.
Lemma rec_gt1 D f k th e : gt1 k -> rr (S D) f k th e = rr 1 f k th e.
Proof. unfold gt1. intros H. cbn [rgamma_rec]. now rewrite H. Qed.
Lemma rec_step D1 D2 f k th : (forall e, rr D1 f (add (Num:=NB) (ofZ (Num:=NB) 1) k) th e = rr D2 f (add (Num:=NB) (ofZ (Num:=NB) 1) k) th e) ->
  forall e, rr (S D1) f k th e = rr (S D2) f k th e.
Proof.
  intros H e. cbn [rgamma_rec]. destruct (negb _); auto. destruct (ltb _ _); auto.
  destruct (runif01 G e) as [U e1]. now rewrite H.
Qed.
(** a shape in [0,1]: two increments leave [0,1] *)
Lemma add_up (k : b64) : fin k -> 0 <= B2R k <= 1 ->
  fin (badd (bofZ 1) k) /\ 1 <= B2R (badd (bofZ 1) k) <= 2.
Proof.
  intros Fk Hk. destruct b1 as [R1 F1].
  assert (Q : 1 <= rnd (B2R (bofZ 1) + B2R k) <= 2).
  { rewrite R1. pose proof (rnd_le 1 (1 + B2R k) ltac:(lra)) as A. pose proof (rnd_le (1 + B2R k) 2 ltac:(lra)) as B.
    rewrite (rnd_Z 1) in A by (cbn; lia). rewrite (rnd_Z 2) in B by (cbn; lia). lra. }
  destruct (badd_R (bofZ 1) k F1 Fk) as [RA FA].
  { rewrite Rabs_pos_eq by lra. pose proof (maxR_big 2 ltac:(cbn; lia)) as M. change (Z.abs 2) with 2%Z in M. lra. }
  rewrite RA. auto.
Qed.
Lemma add_two (k : b64) : fin k -> B2R k = 1 -> B2R (badd (bofZ 1) k) = 2 /\ fin (badd (bofZ 1) k).
Proof.
  intros Fk Hk. destruct b1 as [R1 F1].
  assert (Q : rnd (B2R (bofZ 1) + B2R k) = 2).
  { rewrite R1, Hk. replace (1 + 1) with 2 by lra. apply (rnd_Z 2). cbn; lia. }
  destruct (badd_R (bofZ 1) k F1 Fk) as [RA FA].
  { rewrite Q, Rabs_pos_eq by lra. pose proof (maxR_big 2 ltac:(cbn; lia)) as M. exact M. }
  rewrite RA. auto.
Qed.
Lemma gt1_R (k : b64) : fin k -> 1 < B2R k -> gt1 k.
Proof. intros Fk H. destruct b1 as [R1 F1]. apply (bltb_R (bofZ 1) k F1 Fk). lra. Qed.

Lemma rgamma_depth_b64 D f (k th : b64) e : rr (3 + D) f k th e = rr 3 f k th e.
Proof.
  destruct b1 as [R1 F1].
  destruct (ltb (Num:=NB) (ofZ (Num:=NB) 1) k) eqn:L; [change (3 + D)%nat with (S (2 + D)); now rewrite (rec_gt1 (2 + D)), (rec_gt1 2) by exact L|].
  destruct (negb (gamma_sanity2 (N:=NB) k th)) eqn:Sn; [cbn [rgamma_rec Nat.add]; now rewrite Sn|].
  assert (Fk : fin k /\ 0 <= B2R k <= 1).
  { unfold gamma_sanity2 in Sn. destruct b0 as [R0 F0].
    destruct k as [sg|sg| |sg m ex Hb].
    - cbn. split; auto. lra.
    - destruct sg; [exfalso|vm_compute in L; discriminate].
      revert Sn. unfold any_nan2. destruct th as [? |[]| |[]]; vm_compute; discriminate.
    - exfalso. revert Sn. unfold any_nan2. cbn. discriminate.
    - split; [reflexivity|]. set (kk := B754_finite sg m ex Hb) in *. assert (Fk : fin kk) by reflexivity. clearbody kk.
      split; [|apply (bltb_R_f (bofZ 1) kk F1 Fk) in L; lra].
      apply Rnot_lt_le. intros C. assert (C' : Bltb kk (bofZ 0) = true) by (apply (bltb_R kk (bofZ 0) Fk F0); lra).
      revert Sn. destruct (any_nan2 _ _); [discriminate|].
      change (ltb (Num:=NB) kk (ofZ (Num:=NB) 0)) with (Bltb kk (bofZ 0)). rewrite C'. discriminate. }
  destruct Fk as [Fk Hk]. change (3 + D)%nat with (S (S (S D))). apply rec_step. intros e1.
  change (add (Num:=NB) (ofZ (Num:=NB) 1) k) with (badd (bofZ 1) k).
  destruct (add_up k Fk Hk) as [F2 H2]. set (k2 := badd (bofZ 1) k) in *. clearbody k2.
  destruct (Rle_lt_dec (B2R k2) 1) as [A|A].
  - apply rec_step. intros e2. change (add (Num:=NB) (ofZ (Num:=NB) 1) k2) with (badd (bofZ 1) k2).
    destruct (add_two k2 F2 ltac:(lra)) as [H3 F3]. apply rec_gt1. apply gt1_R; auto. lra.
  - rewrite (rec_gt1 (S D)), (rec_gt1 1); auto; now apply gt1_R.
Qed.
End S.

(** ** runif *)
Definition next1 : b64 := Bsucc (bofZ 1).
Lemma next1_R : fin next1 /\ B2R next1 = succ radix2 (SpecFloat.fexp 53 1024) (B2R (bofZ 1)).
Proof.
  destruct b1 as [R1 F1]. pose proof (Bsucc_correct 53 1024 _ _ (bofZ 1) F1) as C. unfold next1.
  destruct (Rlt_bool_spec (succ radix2 (SpecFloat.fexp 53 1024) (B2R (bofZ 1))) (bpow radix2 1024)) as [L|L].
  - tauto.
  - exfalso. revert C. vm_compute. discriminate.
Qed.
(** adjacent doubles: nothing lies strictly between, whatever is returned *)
Lemma runif_adjacent_refuted : exists a b : b64, fin a /\ fin b /\ B2R a < B2R b /\
  forall (F : TF) (E : Type) (G : Rng b64 E) (e : E), ~ (B2R a < B2R (fst (runif (N:=B64_Num F) G a b e)) < B2R b).
Proof.
  destruct b1 as [R1 F1]. destruct next1_R as [Fn Hn]. exists (bofZ 1), next1. repeat split; auto.
  - rewrite Hn. apply succ_gt_id. lra.
  - intros F E G e. now apply no_double_between.
Qed.

(** libstdc++ computes a + u (b - a), which can round up to b: an engine state whose next word is
    2^64 - 1 makes runif(1,2) return 2. *)
Definition top_state : mt := repeat 0%Z 156 ++ [263883065185796437%Z] ++ repeat 0%Z 155.
Lemma top_word : fst (mt_next top_state) = (2 ^ 64 - 1)%Z. Proof. vm_compute. reflexivity. Qed.
Lemma runif_top (F : TF) : B2SF (fst (runif (N:=B64_Num F) mt_rng (bofZ 1) (bofZ 2) top_state)) = B2SF (bofZ 2).
Proof. vm_compute. reflexivity. Qed.
Lemma runif_libstdcxx_refuted (F : TF) : exists (a b : b64) (e : mt), length e = 312%nat /\ fin a /\ fin b /\ B2R a + 1 <= B2R b /\
  fst (runif (N:=B64_Num F) mt_rng a b e) = b.
Proof.
  exists (bofZ 1), (bofZ 2), top_state. destruct b1 as [R1 F1]. destruct (bofZ_R 2 ltac:(cbn; lia)) as [R2 F2].
  split; [reflexivity|]. split; auto. split; auto. split; [rewrite R1, R2; lra|]. apply B2SF_inj. apply runif_top.
Qed.
