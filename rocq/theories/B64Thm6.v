(** The binary64 theorems on the Student and binomial distribution functions, in the words of SpecB64.v. *)
From Coq Require Import ZArith QArith Reals Bool Lra Lia.
From Verif Require Import Num Sanity Prob Dens Quant B64 B64R B64Ord SpecB64 SpecB64D B64Cdf B64Cdf2 B64Cdf3 B64CR B64CR2 B64CR3 B64Dens B64Thm B64Cdf4 B64Cdf5 B64CdfBad2.
From Flocq Require Import Core IEEE754.BinarySingleNaN.
Local Open Scope Z_scope.
Local Open Scope b64_scope.

Lemma nn_not (x : b64) : x <> B754_nan -> nn x. Proof. destruct x; intros H; try reflexivity. now destruct H. Qed.
Lemma half_ev : nn (blit (1#2)) /\ ev (blit (1#2)) = (1 / 2)%R.
Proof. destruct half_val as [A B]. split; [now apply nn_fin|]. now rewrite ev_fin. Qed.
Lemma t_pt : forall (F : TF) (dof : b64), incbeta_ok F -> big_eps dof -> Beqb dof (bofZ 1) = false -> Beqb dof (bofZ 2) = false ->
  forall x, x <> B754_nan -> bofZ 0 ≤ pt (N:=B64_Num F) x dof false /\ pt (N:=B64_Num F) x dof false ≤ bofZ 1 /\
    (x ≤ bofZ 0 -> pt (N:=B64_Num F) x dof false ≤ blit (1#2)) /\ (bofZ 0 ≺ x -> blit (1#2) ≤ pt (N:=B64_Num F) x dof false).
Proof.
  intros F dof IB P N1 N2 x Nx. apply nn_not in Nx. destruct (pt_range F IB x dof Nx P N1 N2) as (N & A & B). destruct half_ev as [Nh Eh], (ev_Z 0 ltac:(sm)) as [Z0 E0], (ev_Z 1 ltac:(sm)) as [Z1 E1].
  assert (R : (0 <= ev (pt (N:=B64_Num F) x dof false) <= 1)%R) by (destruct (Rle_lt_dec (ev x) 0) as [L|L]; [specialize (A L)|specialize (B L)]; lra).
  split; [apply leb_ev; repeat split; auto; lra|]. split; [apply leb_ev; repeat split; auto; lra|]. split.
  - intros L. apply leb_ev in L. destruct L as (_ & _ & L). rewrite E0 in L. specialize (A L). apply leb_ev. repeat split; auto. lra.
  - intros L. apply ltb_ev in L; auto. rewrite E0 in L. specialize (B L). apply leb_ev. repeat split; auto. lra.
Qed.
Lemma t_pt_tail : forall (F : TF) (dof : b64), incbeta_ok F -> big_eps dof -> Beqb dof (bofZ 1) = false -> Beqb dof (bofZ 2) = false ->
  forall x y, b64_pos x -> x ≤ y -> dof ≤ bmul x x ->
    pt (N:=B64_Num F) x dof false ≤ pt (N:=B64_Num F) y dof false /\ pt (N:=B64_Num F) (Bopp y) dof false ≤ pt (N:=B64_Num F) (Bopp x) dof false.
Proof.
  intros F dof IB P N1 N2 x y Px L T. apply pos_bpos in Px. apply leb_ev in L. destruct L as (Nx & Ny & L).
  assert (R : forall z, nn z -> nn (pt (N:=B64_Num F) z dof false)) by (intros z Nz; exact (proj1 (pt_range F IB z dof Nz P N1 N2))).
  destruct (opp_ev y Ny) as [No _], (opp_ev x Nx) as [Nox _].
  assert (D : bpos y \/ y = B754_infinity false).
  { rewrite (ev_fin x (proj1 Px)) in L. destruct Px as [Fx Px]. pose proof maxR_pos. destruct (nn_cases y Ny) as [Fy|[->| ->]]; auto; [left; split; auto; rewrite ev_fin in L by auto; lra|rewrite ev_m in L; lra]. }
  apply leb_ev in T. destruct T as (Nd & Nq & T). assert (T' : Bltb (bmul x x) dof = false) by (apply ltb_ev_f; auto).
  destruct D as [Py| ->].
  - rewrite (ev_fin x (proj1 Px)), (ev_fin y (proj1 Py)) in L. split; apply leb_ev; repeat split; auto; [now apply pt_tail_up|now apply pt_tail_low].
  - destruct (t_pt F dof IB P N1 N2 x) as (_ & A & _); [intros ->; discriminate Nx|]. destruct (t_pt F dof IB P N1 N2 (Bopp x)) as (B & _ & _); [intros E; rewrite E in Nox; discriminate Nox|].
    destruct (pt_inf_val F dof P) as [-> ->]. split; auto.
Qed.
Lemma t_pt_sym : forall (F : TF) (dof : b64), incbeta_ok F -> big_eps dof -> Beqb dof (bofZ 1) = false -> Beqb dof (bofZ 2) = false ->
  forall x, b64_pos x -> pt (N:=B64_Num F) x dof false = bsub (bofZ 1) (pt (N:=B64_Num F) (Bopp x) dof false).
Proof. intros F dof IB P N1 N2 x Px. apply pt_sym; auto. now apply pos_bpos. Qed.
Lemma t_pbinom : forall (F : TF) (n : Z) (prob : b64), log_std F -> exp_all_ok F -> log_binom_ok F -> 0 <= n <= 2 ^ 53 -> bofZ 0 ≤ prob -> prob ≤ bofZ 1 ->
  (forall x, bofZ 0 ≤ pbinom (N:=B64_Num F) x n prob false) /\ (forall x y, x <= y < n -> pbinom (N:=B64_Num F) x n prob false ≤ pbinom (N:=B64_Num F) y n prob false) /\
  (forall x, n <= x -> pbinom (N:=B64_Num F) x n prob false = bofZ 1).
Proof.
  intros F n p LS EX LB Hn P0 P1. destruct (ev_Z 0 ltac:(sm)) as [Z0 E0]. assert (A : forall x, nneg (pbinom (N:=B64_Num F) x n p false)) by (intros x; now apply pbinom_nneg).
  split; [|split].
  - intros x. destruct (A x) as [N L]. apply leb_ev. split; [exact Z0|]. split; [exact N|]. rewrite E0. exact L.
  - intros x y H. apply leb_ev. destruct (A x), (A y). repeat split; auto. now apply pbinom_mono.
  - intros x H. rewrite Discrete.pbinom_top; [reflexivity|now apply sane|lia].
Qed.
Lemma t_pt_4_refuted : exists x y, b64_pos x /\ x ≺ y /\ y ≺ bofZ 1 /\ pt (N:=B64_Num TFR) y (bofZ 4) false ≺ pt (N:=B64_Num TFR) x (bofZ 4) false /\
  pt (N:=B64_Num TFR) (Bopp x) (bofZ 4) false ≺ pt (N:=B64_Num TFR) (Bopp y) (bofZ 4) false.
Proof. exists t4_a, t4_b. destruct pt4_dip as [A B], pt4_dip_low as [_ D]. split; [split; vm_compute; reflexivity|]. split; [exact A|]. split; [vm_compute; reflexivity|]. split; [exact B|exact D]. Qed.
Lemma t_pbinom_refuted : exists n prob, 0 <= n <= 2 ^ 53 /\ bofZ 0 ≤ prob /\ prob ≤ bofZ 1 /\ bofZ 1 ≺ pbinom (N:=B64_Num TFR) 1 n prob false /\
  ~ b64_cdfZ (fun x => pbinom (N:=B64_Num TFR) x n prob false).
Proof.
  exists 3, p54. destruct pbinom_above as [A _]. split; [lia|]. split; [vm_compute; reflexivity|]. split; [vm_compute; reflexivity|]. split; auto. intros [H _]. destruct (H 1) as [_ K]. exact (no_dip _ _ K A).
Qed.
