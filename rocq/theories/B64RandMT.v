(** The uniform draws of std::mt19937_64, as libstdc++ makes them, lie strictly between 0 and 1. *)
From Coq Require Import ZArith QArith Reals Bool List Lra Lia.
From Verif Require Import Num Sanity Prob B64 B64R B64Ord SpecB64 SpecB64D B64Cdf B64CdfBad B64CR Rand MT SpecRandB.
From Flocq Require Import Core IEEE754.BinarySingleNaN.
Import ListNotations.

Section Words.
Local Open Scope Z_scope.
Notation w64 x := (0 <= x < 2 ^ 64).
Notation ok x := (Z.land x (Z.ones 64) = x).
Lemma ok_w x : ok x <-> w64 x.
Proof.
  rewrite Z.land_ones by lia. split; [intros <-; apply Z.mod_pos_bound; lia|]. intros H. now apply Z.mod_small.
Qed.
Lemma ok_bit x : ok x -> forall n, 0 <= n -> Z.testbit x n = Z.testbit x n && Z.testbit (Z.ones 64) n.
Proof. intros H n Hn. rewrite <- Z.land_spec. now rewrite H. Qed.
Lemma ok_lxor x y : ok x -> ok y -> ok (Z.lxor x y).
Proof.
  intros Hx Hy. apply Z.bits_inj'. intros n Hn. rewrite Z.land_spec, Z.lxor_spec. rewrite (ok_bit x Hx n Hn), (ok_bit y Hy n Hn).
  destruct (Z.testbit x n), (Z.testbit y n), (Z.testbit (Z.ones 64) n); reflexivity.
Qed.
Lemma ok_lor x y : ok x -> ok y -> ok (Z.lor x y).
Proof.
  intros Hx Hy. apply Z.bits_inj'. intros n Hn. rewrite Z.land_spec, Z.lor_spec. rewrite (ok_bit x Hx n Hn), (ok_bit y Hy n Hn).
  destruct (Z.testbit x n), (Z.testbit y n), (Z.testbit (Z.ones 64) n); reflexivity.
Qed.
Lemma ok_land x y : ok x -> ok (Z.land x y).
Proof. intros Hx. rewrite <- Z.land_assoc, (Z.land_comm y), Z.land_assoc, Hx. reflexivity. Qed.
Lemma ok_u x : ok (u64 x).
Proof. unfold u64. change 18446744073709551615 with (Z.ones 64). rewrite <- Z.land_assoc, Z.land_diag. reflexivity. Qed.
Lemma ok_shr x k : 0 <= k -> ok x -> ok (Z.shiftr x k).
Proof.
  intros Hk H. apply ok_w in H. apply ok_w. rewrite Z.shiftr_div_pow2 by auto. assert (0 < 2 ^ k) by (apply Z.pow_pos_nonneg; lia). split; [apply Z.div_pos; lia|].
  apply Z.le_lt_trans with x; [|lia]. apply Z.div_le_upper_bound; nia.
Qed.
Lemma ok_temper x : ok x -> ok (mt_temper x).
Proof.
  intros H. unfold mt_temper. cbv zeta. set (a := Z.lxor x _). assert (A : ok a) by (apply ok_lxor; auto; apply ok_land, ok_shr; auto; lia).
  set (b := Z.lxor a _). assert (B : ok b) by (apply ok_lxor; auto; apply ok_land, ok_u). set (c := Z.lxor b _). assert (C : ok c) by (apply ok_lxor; auto; apply ok_land, ok_u).
  apply ok_lxor; auto. apply ok_shr; auto. lia.
Qed.
Lemma fill_ok n : forall i x, ok x -> length (mt_fill n i x) = n /\ Forall (fun w => w64 w) (mt_fill n i x).
Proof.
  induction n as [|n IH]; intros i x H; cbn [mt_fill]; [split; [reflexivity|constructor]|].
  destruct (IH (i + 1) (u64 (6364136223846793005 * Z.lxor x (Z.shiftr x 62) + (i + 1))) (ok_u _)) as [A B]. split; [cbn [length]; now rewrite A|]. constructor; auto. now apply ok_w.
Qed.
Lemma seed_state s : mt_state (mt_seed s). Proof. apply fill_ok, ok_u. Qed.
Lemma next_state s : mt_state s -> w64 (fst (mt_next s)) /\ mt_state (snd (mt_next s)).
Proof.
  intros [L A]. destruct s as [|x0 [|x1 tl]]; [discriminate L|discriminate L|]. cbn [mt_next fst snd]. set (s := x0 :: x1 :: tl) in *.
  assert (O : forall w, In w s -> ok w) by (intros w Hw; apply ok_w; revert w Hw; now apply Forall_forall).
  set (y := Z.lor _ _). assert (Y : ok y) by (apply ok_lor; apply ok_land, O; cbn; auto).
  set (z := Z.lxor _ _). assert (Zk : ok z).
  { apply ok_lxor; [apply ok_lxor; [|now apply ok_shr; auto; lia]|destruct (Z.odd y); reflexivity].
    apply O, nth_In. rewrite L. apply Nat.leb_le. reflexivity. }
  split; [apply ok_w; now apply ok_temper|]. split.
  - rewrite app_length. cbn [length]. cbn [length] in L. change (length (x1 :: tl)) with (S (length tl)). unfold s in L. cbn [length] in L. rewrite Nat.add_comm. exact L.
  - apply Forall_app. split; [now inversion A|]. constructor; [now apply ok_w|constructor].
Qed.
End Words.

Local Open Scope R_scope.
Section U.
Variable F : TF.
Notation NB := (B64_Num F).
Lemma ev_word w : (0 <= w < 2 ^ 64)%Z -> bfin (bofZ w) /\ B2R (bofZ w) = rnd (IZR w) /\ 0 <= B2R (bofZ w) <= bpow radix2 64.
Proof.
  intros H. pose proof (binary_normalize_correct 53 1024 b64_prec_gt_0 b64_prec_lt_emax mode_NE w 0 false) as C. cbv zeta in C.
  replace (F2R (Float radix2 w 0)) with (IZR w) in C by (unfold F2R; cbn; ring). change (round radix2 (SpecFloat.fexp 53 1024) (round_mode mode_NE) (IZR w)) with (rnd (IZR w)) in C.
  assert (B : 0 <= rnd (IZR w) <= bpow radix2 64).
  { split; [rewrite <- rnd_0; apply rnd_le; apply (IZR_le 0 w); lia|].
    rewrite <- (rnd_fmt (bpow radix2 64)) by (apply generic_format_bpow; vm_compute; discriminate). apply rnd_le. replace (bpow radix2 64) with (IZR (2 ^ 64)) by reflexivity. apply IZR_le. lia. }
  rewrite Rlt_bool_true in C.
  - change (binary_normalize 53 1024 b64_prec_gt_0 b64_prec_lt_emax mode_NE w 0 false) with (bofZ w) in C. destruct C as (A & Fw & _). split; auto. split; auto. rewrite A. exact B.
  - rewrite Rabs_pos_eq by apply B. apply Rle_lt_trans with (1 := proj2 B). apply bpow_lt. lia.
Qed.
Lemma canonical s : mt_state s -> bfin (fst (mt_canonical s)) /\ 0 <= B2R (fst (mt_canonical s)) <= B2R below1 /\ mt_state (snd (mt_canonical s)).
Proof.
  intros H. destruct (next_state s H) as [W K]. unfold mt_canonical. destruct (mt_next s) as [w s']. cbn [fst snd] in *.
  destruct (ev_word w W) as (Fw & _ & Bw). assert (T : bfin two64 /\ B2R two64 = bpow radix2 64) by (split; [vm_compute; reflexivity|vm_compute; lra]). destruct T as [Ft Bt].
  pose proof (bpow_gt_0 radix2 64) as P. destruct (div_ff (bofZ w) two64 Fw Ft) as [Nd Ed]; [lra|]. rewrite Bt in Ed.
  assert (Q : 0 <= B2R (bofZ w) / bpow radix2 64 <= 1).
  { split; [apply Rmult_le_pos; [tauto|left; now apply Rinv_0_lt_compat]|]. apply Rmult_le_reg_r with (bpow radix2 64); auto. unfold Rdiv. rewrite Rmult_assoc, Rinv_l by lra. lra. }
  assert (R : 0 <= ev (bdiv (bofZ w) two64) <= 1) by (rewrite Ed; apply (rc_range 0 1); sm || exact Q). pose proof maxR_1.
  destruct (fin_of _ 0 1 Nd R) as [Fr Br]; [lra|lra|].
  assert (FB : bfin below1 /\ 0 <= B2R below1 < 1) by (split; [vm_compute; reflexivity|vm_compute; lra]). destruct FB as [FB BB].
  destruct (Bleb (bofZ 1) (bdiv (bofZ w) two64)) eqn:L.
  - repeat split; auto; try apply K; lra.
  - assert (Lt : B2R (bdiv (bofZ w) two64) < 1).
    { apply Rnot_le_lt. intros C. assert (X : Bleb (bofZ 1) (bdiv (bofZ w) two64) = true) by (apply (le_Zl 1); [sm|]; split; auto; rewrite ev_fin; auto). congruence. }
    repeat split; auto; try apply K; [lra|].
    assert (BV : B2R below1 = pred radix2 fexp64 1).
    { change 1 with (bpow radix2 0). rewrite pred_bpow. vm_compute. lra. }
    rewrite BV. apply pred_ge_gt; auto; try typeclasses eauto; [apply generic_format_B2R|]. change 1 with (bpow radix2 0). apply generic_format_bpow. vm_compute. discriminate.
Qed.
Lemma unif_mt s : mt_state s -> (bofZ 0 ≺ fst (runif01 (N:=NB) mt_rng s) /\ fst (runif01 (N:=NB) mt_rng s) ≺ bofZ 1)%b64 /\ mt_state (snd (runif01 (N:=NB) mt_rng s)).
Proof.
  intros H. destruct (canonical s H) as (Fu & Bu & K). unfold runif01, runif. replace (unif_sanity2 (N:=NB) (ofZ 0) (ofZ 1)) with true by (vm_compute; reflexivity). cbn [negb].
  change (g_unif mt_rng (g_next mt_rng (ofZ 0) (ofZ 1)) (ofZ 1) s) with (mt_uniform (Bsucc (bofZ 0)) (bofZ 1) s). unfold mt_uniform. destruct (mt_canonical s) as [u s']. cbn [fst snd] in *. split; [|exact K].
  replace (bsub (bofZ 1) (Bsucc (bofZ 0))) with (bofZ 1) by (apply b64_eq; vm_compute; reflexivity). set (t := Bsucc (bofZ 0)).
  assert (T : bfin t /\ B2R t = bpow radix2 (-1074)) by (split; [vm_compute; reflexivity|vm_compute; lra]). destruct T as [Ft Bt].
  destruct (bofZ_R 1 ltac:(sm)) as [A1 F1]. destruct (mul_ff u (bofZ 1) Fu F1) as [Nm Em]. rewrite A1, Rmult_1_r, <- (ev_fin u Fu), (rc_ev u Fu), (ev_fin u Fu) in Em.
  pose proof maxR_1 as M1. assert (B1 : B2R below1 < 1) by (vm_compute; lra).
  destruct (fin_of (bmul u (bofZ 1)) (B2R u) (B2R u) Nm) as [Fm Bm]; [rewrite Em; lra|lra|lra|].
  assert (Bm' : B2R (bmul u (bofZ 1)) = B2R u) by lra. destruct (add_ff _ t Fm Ft) as [Na Ea]. rewrite Bm', Bt in Ea. pose proof (bpow_gt_0 radix2 (-1074)) as Pt.
  assert (Lo : bpow radix2 (-1074) <= ev (badd (bmul u (bofZ 1)) t)).
  { rewrite Ea. rewrite <- Bt at 1. rewrite <- (ev_fin t Ft), <- (rc_ev t Ft), (ev_fin t Ft), Bt. apply rc_mono. lra. }
  assert (Hi : ev (badd (bmul u (bofZ 1)) t) <= B2R below1).
  { rewrite Ea. apply Rle_trans with (rc (B2R below1 + bpow radix2 (-1074))); [apply rc_mono; lra|].
    assert (FB : bfin below1) by (vm_compute; reflexivity). destruct (add_ff below1 t FB Ft) as [_ E2]. rewrite Bt in E2. rewrite <- E2.
    replace (badd below1 t) with below1 by (apply b64_eq; vm_compute; reflexivity). rewrite ev_fin; auto. lra. }
  destruct (ev_Z 0 ltac:(sm)) as [N0 E0], (ev_Z 1 ltac:(sm)) as [N1 E1]. split; apply ltb_ev; auto; lra.
Qed.
End U.

(** the engine restricted to its states; the normal draws are whatever finite numbers are supplied *)
Definition mt_sub (z : list Z -> b64) : Rng b64 {s : list Z | mt_state s} := {|
  g_unif := fun a b e => let r := mt_uniform a b (proj1_sig e) in
    (fst r, exist _ (snd (mt_next (proj1_sig e))) (proj2 (next_state _ (proj2_sig e))));
  g_norm := fun e => (z (proj1_sig e), exist _ (snd (mt_next (proj1_sig e))) (proj2 (next_state _ (proj2_sig e))));
  g_next := b64_next; g_mk := fun s => exist _ (mt_seed s) (seed_state s) |}.
Lemma mt_sub_ok z : (forall s, b64_fin (z s)) -> rng_b64 (mt_sub z).
Proof.
  intros H. split; [|intros e; apply H]. intros e. destruct e as [s K]. exact (proj1 (unif_mt TFR s K)).
Qed.
