(** misc/internal_fns/seed_values.hpp 29-34: the seeds of the per-block engines (C33). *)
From Coq Require Import ZArith Reals Bool List Lra Lia.
From Verif Require Import Num ER ERTac B64 Rand Vec SpecVec VecThm VecProof VecPlan B64R Support.
From Flocq Require Import Core IEEE754.BinarySingleNaN.
Import ListNotations.
Local Open Scope R_scope.

(** static_cast<size_t>: truncation, undefined ([None]) when the truncated value does not fit *)
Definition fits (z : Z) : option Z := if (0 <=? z)%Z && (z <? 2 ^ 64)%Z then Some z else None.
Definition er_to_size (x : ER) : option Z := match x with Fin r => fits (Ztrunc r) | _ => None end.
Definition b64_to_size (x : b64) : option Z := if is_finite x then fits (Btrunc x) else None.

(** The seed of block [k] of [n] when the uniform draw is [u]; [None] is undefined behaviour. *)
Definition er_seed (S : SF) (k n : Z) (u : ER) : option Z := er_to_size (seed_arg (N := ER_Num S) k n u).
Definition b64_seed (F : TF) (k n : Z) (u : b64) : option Z := b64_to_size (seed_arg (N := B64_Num F) k n u).

Lemma fits_some z : (0 <= z < 2 ^ 64)%Z -> fits z = Some z.
Proof. intros H. unfold fits. now rewrite (proj2 (Z.leb_le _ _)), (proj2 (Z.ltb_lt _ _)) by lia. Qed.

Lemma er_seed_range S k n u : (0 <= k < n)%Z -> (n <= 4)%Z -> 0 < u < 1 ->
  exists z, er_seed S k n (Fin u) = Some z /\ (1000 * (k + n) <= z < 1000 * (k + n + 1))%Z.
Proof.
  intros Hk Hn Hu. unfold er_seed, seed_arg. un_cls. rewrite !eadd_F, emul_F. cbn [er_to_size].
  set (r := (u + IZR k + IZR n) * 1000).
  assert (Hr : IZR (1000 * (k + n)) <= r < IZR (1000 * (k + n + 1))).
  { unfold r. rewrite !mult_IZR, !plus_IZR. lra. }
  assert (Q : (1000 * (k + n) <= Ztrunc r < 1000 * (k + n + 1))%Z).
  { assert (0 <= r). { apply Rle_trans with (2 := proj1 Hr). apply IZR_le. lia. }
    rewrite Ztrunc_floor by auto. split; [apply Zfloor_lub; apply Hr|].
    apply lt_IZR. apply Rle_lt_trans with (2 := proj2 Hr). apply Zfloor_lb. }
  exists (Ztrunc r). split; auto. apply fits_some. lia.
Qed.

(** ** binary64 *)
Section B.
Variable F : TF.
Local Notation bp := (bpow radix2 (-40)).

Lemma bp_eq : bp = / 1099511627776.
Proof. reflexivity. Qed.
(** a number in [m, m+1] stays there after rounding; also below m + 1 - 2^-40 *)
Lemma rnd_between m x : (0 <= m <= 8000)%Z -> IZR m <= x <= IZR (m + 1) -> IZR m <= rnd x <= IZR (m + 1).
Proof.
  intros Hm (A & B). split.
  - rewrite <- (rnd_Z m) by lia. now apply rnd_le.
  - rewrite <- (rnd_Z (m + 1)) by lia. now apply rnd_le.
Qed.
Lemma rnd_below m x : (0 <= m <= 7)%Z -> x <= IZR (m + 1) - bp -> rnd x <= IZR (m + 1) - bp.
Proof.
  intros Hm A. replace (IZR (m + 1) - bp) with (IZR ((m + 1) * 2 ^ 40 - 1) * bp) in *.
  - rewrite <- (rnd_dyadic ((m + 1) * 2 ^ 40 - 1) (-40)) by lia. now apply rnd_le.
  - rewrite minus_IZR, mult_IZR, bp_eq. change (IZR (2 ^ 40)) with 1099511627776. lra.
Qed.
Lemma small_max x : 0 <= x <= 100000 -> Rabs x < maxR.
Proof. intros H. rewrite Rabs_pos_eq by lra. pose proof (maxR_big 100000 ltac:(cbn; lia)) as M. change (Z.abs 100000) with 100000%Z in M. lra. Qed.

Lemma seed_arg_R k n (u : b64) : (0 <= k < n)%Z -> (n <= 4)%Z -> is_finite u = true -> 0 < B2R u < 1 ->
  exists r1 r2, B2R (seed_arg (N := B64_Num F) k n u) = rnd (r2 * 1000) /\
    is_finite (seed_arg (N := B64_Num F) k n u) = true /\
    r1 = rnd (B2R u + IZR k) /\ r2 = rnd (r1 + IZR n) /\
    IZR k <= r1 <= IZR (k + 1) /\ IZR (k + n) <= r2 <= IZR (k + n + 1).
Proof.
  intros Hk Hn Fu Hu. unfold seed_arg. cbn [add mul ofZ B64_Num].
  destruct (bofZ_R k ltac:(lia)) as (Ek & Fk). destruct (bofZ_R n ltac:(lia)) as (En & Fn).
  destruct (bofZ_R 1000 ltac:(lia)) as (Eh & Fh).
  assert (Kr : 0 <= IZR k <= 3) by (split; apply IZR_le; lia).
  assert (Nr : 1 <= IZR n <= 4) by (split; apply IZR_le; lia).
  assert (H1 : IZR k <= rnd (B2R u + IZR k) <= IZR (k + 1)).
  { apply rnd_between; [lia|]. rewrite plus_IZR. lra. }
  destruct (badd_R u (bofZ k)) as (E1 & F1); auto.
  { rewrite Ek. apply small_max. rewrite plus_IZR in H1. lra. }
  rewrite Ek in E1. set (r1 := rnd (B2R u + IZR k)) in *.
  assert (H2 : IZR (k + n) <= rnd (r1 + IZR n) <= IZR (k + n + 1)).
  { apply rnd_between; [lia|]. rewrite !plus_IZR in *. lra. }
  destruct (badd_R (badd u (bofZ k)) (bofZ n)) as (E2 & F2); auto.
  { rewrite E1, En. apply small_max. rewrite !plus_IZR in H2. lra. }
  rewrite E1, En in E2. set (r2 := rnd (r1 + IZR n)) in *.
  destruct (bmul_R (badd (badd u (bofZ k)) (bofZ n)) (bofZ 1000)) as (E3 & F3); auto.
  { rewrite E2, Eh. apply small_max. rewrite !plus_IZR in H2. split.
    - rewrite <- rnd_0. apply rnd_le. lra.
    - rewrite <- (rnd_Z 100000) by lia. apply rnd_le. lra. }
  rewrite E2, Eh in E3. exists r1, r2. repeat split; auto; apply H1 || apply H2.
Qed.

Lemma b64_seed_range k n (u : b64) : (0 <= k < n)%Z -> (n <= 4)%Z -> is_finite u = true -> 0 < B2R u < 1 ->
  exists z, b64_seed F k n u = Some z /\ (1000 * (k + n) <= z <= 1000 * (k + n + 1))%Z /\
    (B2R u <= 1 - bp -> (z < 1000 * (k + n + 1))%Z).
Proof.
  intros Hk Hn Fu Hu. destruct (seed_arg_R k n u Hk Hn Fu Hu) as (r1 & r2 & E & Fin & D1 & D2 & R1 & R2).
  unfold b64_seed, b64_to_size. rewrite Fin, btrunc_R, E.
  assert (Hr : IZR (1000 * (k + n)) <= rnd (r2 * 1000) <= IZR (1000 * (k + n + 1))).
  { split; [rewrite <- (rnd_Z (1000 * (k + n))) by lia|rewrite <- (rnd_Z (1000 * (k + n + 1))) by lia];
    apply rnd_le; rewrite mult_IZR; lra. }
  set (r := rnd (r2 * 1000)) in *.
  assert (Q : (1000 * (k + n) <= Ztrunc r <= 1000 * (k + n + 1))%Z).
  { split.
    - rewrite <- (Ztrunc_IZR (1000 * (k + n))). apply Ztrunc_le. lra.
    - rewrite <- (Ztrunc_IZR (1000 * (k + n + 1))). apply Ztrunc_le. lra. }
  exists (Ztrunc r). split; [apply fits_some; lia|]. split; auto.
  intros Hb.
  assert (B1 : r1 <= IZR (k + 1) - bp).
  { rewrite D1. apply rnd_below; [lia|]. rewrite plus_IZR. lra. }
  assert (B2 : r2 <= IZR (k + n + 1) - bp).
  { rewrite D2. apply rnd_below; [lia|]. rewrite !plus_IZR in *. lra. }
  assert (B3 : r < IZR (1000 * (k + n + 1))).
  { apply Rle_lt_trans with (IZR (125 * (((k + n + 1) * 2 ^ 40) - 1)) * bpow radix2 (-37)).
    - unfold r. rewrite <- (rnd_dyadic (125 * (((k + n + 1) * 2 ^ 40) - 1)) (-37)) by lia. apply rnd_le.
      rewrite mult_IZR, minus_IZR, mult_IZR. change (bpow radix2 (-37)) with (/ 137438953472).
      change (IZR (2 ^ 40)) with 1099511627776. rewrite bp_eq in B2. lra.
    - rewrite !mult_IZR, minus_IZR, mult_IZR. change (bpow radix2 (-37)) with (/ 137438953472).
      change (IZR (2 ^ 40)) with 1099511627776. lra. }
  apply lt_IZR. apply Rle_lt_trans with (2 := B3). rewrite Ztrunc_floor.
  - apply Zfloor_lb.
  - apply Rle_trans with (2 := proj1 Hr). apply IZR_le. lia.
Qed.

Definition u_hi : b64 := binary_normalize 53 1024 b64_prec_gt_0 b64_prec_lt_emax mode_NE 9007199254740991 (-53) false.
Definition u_lo : b64 := binary_normalize 53 1024 b64_prec_gt_0 b64_prec_lt_emax mode_NE 1 (-53) false.

Lemma b64_seed_hi : b64_seed F 0 2 u_hi = Some 3000%Z. Proof. vm_compute. reflexivity. Qed.
Lemma b64_seed_lo : b64_seed F 1 2 u_lo = Some 3000%Z. Proof. vm_compute. reflexivity. Qed.
End B.

(** ** all the seeds of one fill *)
Lemma combine_in {X Y} (l : list X) (l' : list Y) x y : In (x, y) (combine l l') -> In x l /\ In y l'.
Proof. intros H. split; [eapply in_combine_l|eapply in_combine_r]; eauto. Qed.
Lemma nodup_map_inj {X Y Z} (f : X * Y -> Z) (l : list X) (l' : list Y) : NoDup l ->
  (forall a b a' b', In (a, b) (combine l l') -> In (a', b') (combine l l') -> f (a, b) = f (a', b') -> a = a') ->
  NoDup (map f (combine l l')).
Proof.
  intros ND. revert l'. induction ND as [|x l Hx ND IH]; intros [|y l'] H; cbn; try constructor.
  - intros Hi. apply in_map_iff in Hi. destruct Hi as ((x' & y') & E & Hi).
    assert (x = x') as <- by (eapply (H x y x' y'); cbn; auto). apply combine_in in Hi. tauto.
  - apply IH. intros a b a' b' H1 H2. apply (H a b a' b'); cbn; auto.
Qed.
Lemma advance_all {E U} (uni : E -> U * E) (P : U -> Prop) n : (forall e, P (fst (uni e))) ->
  forall e u, In u (fst (advance uni n e)) -> P u.
Proof.
  intros H. induction n as [|n IH]; intros e u; cbn; [intros []|].
  destruct (advance uni n (snd (uni e))) as [us e'] eqn:A. cbn. intros [<-|Hi]; [apply H|].
  apply (IH (snd (uni e))). now rewrite A.
Qed.
Lemma nt_4 omp : (1 <= omp -> 1 <= n_threads omp <= 4)%Z.
Proof. intros. apply nt_range. auto. Qed.

Section All.
Context {E : Type}.
(** the seeds drawn for the blocks, in order *)
Definition seeds {U} (seed : Z -> Z -> U -> option Z) (uni : E -> U * E) (omp : Z) (e0 : E) : list (option Z) :=
  map (fun ku => seed (fst ku) (n_threads omp) (snd ku))
    (combine (upto 0 (n_threads omp)) (fst (advance uni (Z.to_nat (n_threads omp)) e0))).

Lemma seeded_seeds {U} (seed : Z -> Z -> U -> option Z) (uni : E -> U * E) (mk : Z -> E) omp e0 : (1 <= omp)%Z ->
  fst (seeded uni (fun k n u => match seed k n u with Some z => z | None => 0%Z end) mk omp e0) =
  map (fun z => mk (match z with Some z => z | None => 0%Z end)) (seeds seed uni omp e0).
Proof. intros H. rewrite (proj2 (seeded_advance _ _ _ _ _ H)). unfold seeds. now rewrite map_map. Qed.

Lemma er_seeds_distinct (S : SF) (uni : E -> ER * E) omp e0 : (1 <= omp)%Z ->
  (forall e, exists u, fst (uni e) = Fin u /\ 0 < u < 1) ->
  ~ In None (seeds (er_seed S) uni omp e0) /\ NoDup (seeds (er_seed S) uni omp e0).
Proof.
  intros Ho Hu. pose proof (nt_4 _ Ho) as Hn. unfold seeds.
  assert (R : forall k u, In (k, u) (combine (upto 0 (n_threads omp)) (fst (advance uni (Z.to_nat (n_threads omp)) e0))) ->
    exists z, er_seed S k (n_threads omp) u = Some z /\ (1000 * (k + n_threads omp) <= z < 1000 * (k + n_threads omp + 1))%Z).
  { intros k u Hi. apply combine_in in Hi. destruct Hi as (Hk & Hi). apply upto_in in Hk.
    apply (advance_all uni (fun v => exists u, v = Fin u /\ 0 < u < 1)) in Hi; auto.
    destruct Hi as (r & -> & Hr). apply er_seed_range; auto; lia. }
  split.
  - intros Hi. apply in_map_iff in Hi. destruct Hi as ((k & u) & Q & Hi). destruct (R _ _ Hi) as (z & Hz & _).
    cbn in Q. congruence.
  - apply nodup_map_inj; [apply upto_nodup|]. intros k u k' u' H1 H2 Q. cbn in Q.
    destruct (R _ _ H1) as (z & Hz & Rz), (R _ _ H2) as (z' & Hz' & Rz').
    assert (z = z') by congruence. nia.
Qed.

Lemma b64_seeds_distinct (F : TF) (uni : E -> b64 * E) omp e0 : (1 <= omp)%Z ->
  (forall e, is_finite (fst (uni e)) = true /\ 0 < B2R (fst (uni e)) <= 1 - bpow radix2 (-40)) ->
  ~ In None (seeds (b64_seed F) uni omp e0) /\ NoDup (seeds (b64_seed F) uni omp e0).
Proof.
  intros Ho Hu. pose proof (nt_4 _ Ho) as Hn. unfold seeds.
  assert (R : forall k u, In (k, u) (combine (upto 0 (n_threads omp)) (fst (advance uni (Z.to_nat (n_threads omp)) e0))) ->
    exists z, b64_seed F k (n_threads omp) u = Some z /\ (1000 * (k + n_threads omp) <= z < 1000 * (k + n_threads omp + 1))%Z).
  { intros k u Hi. apply combine_in in Hi. destruct Hi as (Hk & Hi). apply upto_in in Hk.
    apply (advance_all uni (fun v => is_finite v = true /\ 0 < B2R v <= 1 - bpow radix2 (-40))) in Hi; auto.
    destruct Hi as (Fu & Hr). destruct (b64_seed_range F k (n_threads omp) u) as (z & Q & A & B); auto; try lia.
    { rewrite bp_eq in Hr. lra. }
    exists z. repeat split; auto; try lia. apply B. lra. }
  split.
  - intros Hi. apply in_map_iff in Hi. destruct Hi as ((k & u) & Q & Hi). destruct (R _ _ Hi) as (z & Hz & _).
    cbn in Q. congruence.
  - apply nodup_map_inj; [apply upto_nodup|]. intros k u k' u' H1 H2 Q. cbn in Q.
    destruct (R _ _ H1) as (z & Hz & Rz), (R _ _ H2) as (z' & Hz' & Rz').
    assert (z = z') by congruence. nia.
Qed.
End All.

(** Blocks that are not neighbours never share a seed in binary64. *)
Lemma b64_seeds_apart (F : TF) n k1 k2 (u1 u2 : b64) : (0 <= k1)%Z -> (k1 + 1 < k2)%Z -> (k2 < n <= 4)%Z ->
  is_finite u1 = true -> is_finite u2 = true -> 0 < B2R u1 < 1 -> 0 < B2R u2 < 1 ->
  b64_seed F k1 n u1 <> b64_seed F k2 n u2.
Proof.
  intros H0 H1 H2 F1 F2 R1 R2. destruct (b64_seed_range F k1 n u1) as (z1 & -> & A1 & _); auto; try lia.
  destruct (b64_seed_range F k2 n u2) as (z2 & -> & A2 & _); auto; try lia. intros [= ->]. nia.
Qed.

(** Neighbours can. *)
Definition uni_pair (e : bool) : b64 * bool := if e then (u_hi, false) else (u_lo, true).
Lemma b64_seeds_refuted (F : TF) : exists (E : Type) (uni : E -> b64 * E) (omp : Z) (e0 : E), (1 <= omp)%Z /\
  (forall e, is_finite (fst (uni e)) = true /\ 0 < B2R (fst (uni e)) < 1) /\ ~ NoDup (seeds (b64_seed F) uni omp e0).
Proof.
  exists bool, uni_pair, 2%Z, true. split; [lia|]. split.
  - intros [|]; cbn [uni_pair fst].
    + split; [vm_compute; reflexivity|].
      replace (B2R u_hi) with (9007199254740991 * / 9007199254740992); [lra|].
      assert (E : B2SF u_hi = SpecFloat.S754_finite false 9007199254740991 (-53)) by (vm_compute; reflexivity).
      rewrite <- SF2R_B2SF, E. reflexivity.
    + split; [vm_compute; reflexivity|].
      replace (B2R u_lo) with (4503599627370496 * / 40564819207303340847894502572032); [lra|].
      assert (E : B2SF u_lo = SpecFloat.S754_finite false 4503599627370496 (-105)) by (vm_compute; reflexivity).
      rewrite <- SF2R_B2SF, E. reflexivity.
  - assert (Q : seeds (b64_seed F) uni_pair 2 true = [Some 3000; Some 3000]%Z) by (vm_compute; reflexivity).
    rewrite Q. intros H. inversion H as [|? ? Hi _]. apply Hi. now left.
Qed.
