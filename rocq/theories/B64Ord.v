(** The order of binary64 numbers and the monotonicity of the rounded operations, infinities and
    overflow included.  Every number but NaN is placed on the real line by [ev]; the infinities go to
    +-2^1024, beyond every finite value. *)
From Coq Require Import ZArith Reals Bool Lra Lia.
From Verif Require Import Num B64 B64R.
From Flocq Require Import Core IEEE754.BinarySingleNaN.
Local Open Scope R_scope.

Global Arguments maxR : simpl never.
Global Arguments rnd : simpl never.

Definition nn (x : b64) : Prop := bisnan x = false.
Definition ev (x : b64) : R :=
  match x with
  | B754_infinity s => if s then - maxR else maxR
  | B754_nan => 0
  | _ => B2R x
  end.
Notation bfin x := (is_finite (prec:=53) (emax:=1024) x = true).

Lemma maxR_pos : 0 < maxR. Proof. apply bpow_gt_0. Qed.
Lemma maxR_1 : 2 < maxR.
Proof. pose proof (maxR_big 2 ltac:(cbn; lia)). cbn in H. exact H. Qed.
Lemma ev_fin x : bfin x -> ev x = B2R x. Proof. destruct x; cbn; auto; discriminate. Qed.
Lemma nn_fin x : bfin x -> nn x. Proof. destruct x; cbn; unfold nn; auto; discriminate. Qed.
Lemma fin_lt x : bfin x -> - maxR < ev x < maxR.
Proof. intros H. rewrite ev_fin by auto. pose proof (abs_B2R_lt_emax 53 1024 x) as A. apply Rabs_def2 in A. unfold maxR. lra. Qed.
Lemma ev_bound x : - maxR <= ev x <= maxR.
Proof.
  pose proof maxR_pos. destruct x as [s|s| |s m e B] eqn:E; [cbn; lra|destruct s; cbn; lra|cbn; lra|].
  rewrite <- E. pose proof (fin_lt x ltac:(subst; reflexivity)). lra.
Qed.
Lemma ev_lt_fin x : nn x -> - maxR < ev x < maxR -> bfin x.
Proof. destruct x as [s|s| |s m e B]; cbn; auto; intros N H; try discriminate N; destruct s; lra. Qed.
Lemma ev_max x : nn x -> ev x = maxR -> x = B754_infinity false.
Proof.
  intros N H. pose proof maxR_pos. destruct x as [s|s| |s m e B] eqn:E.
  - cbn in H. lra.
  - destruct s; cbn in H; [lra|auto].
  - discriminate N.
  - rewrite <- E in H. pose proof (fin_lt x ltac:(subst; reflexivity)). lra.
Qed.
Lemma ev_min x : nn x -> ev x = - maxR -> x = B754_infinity true.
Proof.
  intros N H. pose proof maxR_pos. destruct x as [s|s| |s m e B] eqn:E.
  - cbn in H. lra.
  - destruct s; cbn in H; [auto|lra].
  - discriminate N.
  - rewrite <- E in H. pose proof (fin_lt x ltac:(subst; reflexivity)). lra.
Qed.
Lemma nn_cases x : nn x -> bfin x \/ x = B754_infinity false \/ x = B754_infinity true.
Proof. destruct x as [s|s| |s m e B]; cbn; auto; try discriminate; destruct s; auto. Qed.

Lemma ev_p : ev (B754_infinity false) = maxR. Proof. reflexivity. Qed.
Lemma ev_m : ev (B754_infinity true) = - maxR. Proof. reflexivity. Qed.
(** ** comparisons *)
Ltac cmp_inf Fx := let A := fresh in pose proof (fin_lt _ Fx) as A; pose proof maxR_pos.
Lemma leb_ev x y : Bleb x y = true <-> nn x /\ nn y /\ ev x <= ev y.
Proof.
  pose proof maxR_pos. split.
  - intros E. assert (Nx : nn x) by (destruct x; try reflexivity; discriminate E).
    assert (Ny : nn y) by (destruct y; try reflexivity; destruct x as [s|s| |s m e B]; try discriminate E; destruct s; discriminate E).
    split; auto. split; auto.
    destruct (nn_cases x Nx) as [F | [-> | ->]], (nn_cases y Ny) as [F' | [-> | ->]]; try (cbn; lra).
    + rewrite !ev_fin by auto. now apply bleb_R.
    + pose proof (ev_bound x). rewrite ev_p. lra.
    + exfalso. destruct x as [s|s| |s m e B]; try discriminate F; try discriminate E; destruct s; discriminate E.
    + exfalso. destruct y as [s|s| |s m e B]; try discriminate F'; try discriminate E; destruct s; discriminate E.
    + discriminate E.
    + pose proof (ev_bound y). rewrite ev_m. lra.
  - intros (Nx & Ny & L).
    destruct (nn_cases x Nx) as [F | [-> | ->]], (nn_cases y Ny) as [F' | [-> | ->]]; try reflexivity.
    + apply bleb_R; auto. rewrite <- !ev_fin by auto. auto.
    + destruct x as [s|s| |s m e B]; try discriminate F; try reflexivity; destruct s; reflexivity.
    + pose proof (fin_lt _ F). rewrite ?ev_p, ?ev_m in L. lra.
    + pose proof (fin_lt _ F'). rewrite ?ev_p, ?ev_m in L. lra.
    + cbn in L. lra.
    + destruct y as [s|s| |s m e B]; try discriminate F'; try reflexivity; destruct s; reflexivity.
Qed.
Lemma ltb_ev x y : nn x -> nn y -> (Bltb x y = true <-> ev x < ev y).
Proof.
  pose proof maxR_pos. intros Nx Ny.
  destruct (nn_cases x Nx) as [F | [-> | ->]], (nn_cases y Ny) as [F' | [-> | ->]].
  - rewrite !ev_fin by auto. now apply bltb_R.
  - pose proof (fin_lt _ F). rewrite ?ev_p, ?ev_m. split; intros; [lra|]. destruct x as [s|s| |s m e B]; try discriminate F; try reflexivity; destruct s; reflexivity.
  - pose proof (fin_lt _ F). rewrite ?ev_p, ?ev_m. split; intros E; [|lra]. exfalso. destruct x as [s|s| |s m e B]; try discriminate F; try discriminate E; destruct s; discriminate E.
  - pose proof (fin_lt _ F'). rewrite ?ev_p, ?ev_m. split; intros E; [|lra]. exfalso. destruct y as [s|s| |s m e B]; try discriminate F'; try discriminate E; destruct s; discriminate E.
  - cbn. split; intros E; [discriminate E|lra].
  - cbn. split; intros E; [discriminate E|lra].
  - pose proof (fin_lt _ F'). rewrite ?ev_p, ?ev_m. split; intros; [lra|]. destruct y as [s|s| |s m e B]; try discriminate F'; try reflexivity; destruct s; reflexivity.
  - cbn. split; intros; [lra|reflexivity].
  - cbn. split; intros E; [discriminate E|lra].
Qed.
Lemma ltb_ev_f x y : nn x -> nn y -> (Bltb x y = false <-> ev y <= ev x).
Proof.
  intros Nx Ny. pose proof (ltb_ev x y Nx Ny). destruct (Bltb x y); split; intros; auto; try discriminate.
  - apply H in H0 || (assert (ev x < ev y) by now apply H); lra.
  - destruct (Rlt_dec (ev x) (ev y)) as [L|L]; [|lra]. apply H in L. discriminate.
Qed.
Lemma eqb_ev x y : nn x -> nn y -> (Beqb x y = true <-> ev x = ev y).
Proof.
  pose proof maxR_pos. intros Nx Ny.
  destruct (nn_cases x Nx) as [F | [-> | ->]], (nn_cases y Ny) as [F' | [-> | ->]].
  - rewrite !ev_fin by auto. now apply beqb_R.
  - pose proof (fin_lt _ F). rewrite ?ev_p, ?ev_m. split; intros E; [|lra]. exfalso. destruct x as [s|s| |s m e B]; try discriminate F; try discriminate E; destruct s; discriminate E.
  - pose proof (fin_lt _ F). rewrite ?ev_p, ?ev_m. split; intros E; [|lra]. exfalso. destruct x as [s|s| |s m e B]; try discriminate F; try discriminate E; destruct s; discriminate E.
  - pose proof (fin_lt _ F'). rewrite ?ev_p, ?ev_m. split; intros E; [|lra]. exfalso. destruct y as [s|s| |s m e B]; try discriminate F'; try discriminate E; destruct s; discriminate E.
  - cbn. split; intros; [lra|reflexivity].
  - cbn. split; intros E; [discriminate E|lra].
  - pose proof (fin_lt _ F'). rewrite ?ev_p, ?ev_m. split; intros E; [|lra]. exfalso. destruct y as [s|s| |s m e B]; try discriminate F'; try discriminate E; destruct s; discriminate E.
  - cbn. split; intros E; [discriminate E|lra].
  - cbn. split; intros; [lra|reflexivity].
Qed.
Lemma eqb_ev_f x y : nn x -> nn y -> (Beqb x y = false <-> ev x <> ev y).
Proof. intros Nx Ny. pose proof (eqb_ev x y Nx Ny). destruct (Beqb x y); split; intros; auto; try discriminate; intuition discriminate. Qed.
Lemma leb_ev_f x y : nn x -> nn y -> (Bleb x y = false <-> ev y < ev x).
Proof.
  intros Nx Ny. pose proof (leb_ev x y). destruct (Bleb x y); split; intros; auto; try discriminate.
  - exfalso. destruct H as [H _]. destruct (H eq_refl) as (_ & _ & L). lra.
  - destruct (Rlt_dec (ev y) (ev x)) as [L|L]; auto. assert (false = true) by (apply H; repeat split; auto; lra). discriminate.
Qed.

(** ** rounding, with overflow to the infinities *)
Definition rc (r : R) : R := Rmax (- maxR) (Rmin maxR (rnd r)).
Lemma rc_mono a b : a <= b -> rc a <= rc b.
Proof. intros H. apply rnd_le in H. unfold rc. apply Rle_max_compat_l. now apply Rle_min_compat_l. Qed.
Lemma rc_in r : Rabs (rnd r) < maxR -> rc r = rnd r.
Proof. intros H. apply Rabs_def2 in H. unfold rc. rewrite Rmin_right by lra. rewrite Rmax_right; lra. Qed.
Lemma rc_hi r : maxR <= rnd r -> rc r = maxR.
Proof. intros H. pose proof maxR_pos. unfold rc. rewrite Rmin_left by lra. rewrite Rmax_right; lra. Qed.
Lemma rc_lo r : rnd r <= - maxR -> rc r = - maxR.
Proof. intros H. pose proof maxR_pos. unfold rc. rewrite Rmin_right by lra. rewrite Rmax_left; lra. Qed.
Lemma rc_big r : maxR <= Rabs (rnd r) -> 0 <= r -> rc r = maxR.
Proof. intros H P. apply rc_hi. apply rnd_le in P. rewrite rnd_0 in P. rewrite Rabs_pos_eq in H; auto. Qed.
Lemma rc_small r : maxR <= Rabs (rnd r) -> r <= 0 -> rc r = - maxR.
Proof. intros H P. apply rc_lo. apply rnd_le in P. rewrite rnd_0 in P. rewrite Rabs_left1 in H; lra. Qed.
Lemma rc_0 : rc 0 = 0.
Proof. pose proof maxR_pos. rewrite rc_in; rewrite rnd_0; auto. now rewrite Rabs_R0. Qed.
Lemma rc_bound r : - maxR <= rc r <= maxR.
Proof. pose proof maxR_pos. unfold rc. split; [apply Rmax_l|]. apply Rmax_lub; [lra|apply Rmin_l]. Qed.
(** a real that is a double is not changed *)
Lemma rc_ev x : bfin x -> rc (ev x) = ev x.
Proof. intros F. pose proof (fin_lt x F). rewrite ev_fin in * by auto. rewrite rc_in; rewrite B2R_fmt; auto. apply Rabs_def1; lra. Qed.
Lemma rc_Z m : (Z.abs m <= 2 ^ 53)%Z -> rc (IZR m) = IZR m.
Proof. intros H. rewrite rc_in; rewrite rnd_Z; auto. rewrite <- abs_IZR. now apply maxR_big. Qed.

Lemma B2R_sign (x : b64) : Bsign x = false -> 0 <= B2R x.
Proof. destruct x as [s|s| |s m e B]; cbn; try lra. intros ->. apply F2R_ge_0. cbn. lia. Qed.
Lemma B2R_sign_t (x : b64) : Bsign x = true -> B2R x <= 0.
Proof. destruct x as [s|s| |s m e B]; cbn; try lra. intros ->. apply F2R_le_0. cbn. lia. Qed.
Lemma overflow_val (z : b64) s : B2SF z = SpecFloat.S754_infinity s -> z = B754_infinity s.
Proof. destruct z; cbn; try discriminate. intros E. injection E as ->. auto. Qed.

Lemma add_ff x y : bfin x -> bfin y -> nn (badd x y) /\ ev (badd x y) = rc (B2R x + B2R y).
Proof.
  intros Fx Fy. pose proof (Bplus_correct 53 1024 _ _ mode_NE x y Fx Fy) as C.
  change (round radix2 fexp64 (round_mode mode_NE) (B2R x + B2R y)) with (rnd (B2R x + B2R y)) in C.
  change (bpow radix2 1024) with maxR in C. change (Bplus mode_NE x y) with (badd x y) in C.
  destruct (Rlt_bool_spec (Rabs (rnd (B2R x + B2R y))) maxR) as [L|L].
  - destruct C as (A & B & _). split; [now apply nn_fin|]. rewrite ev_fin by auto. now rewrite A, rc_in.
  - destruct C as (A & S). cbn in A. apply overflow_val in A. rewrite A. split; [reflexivity|]. destruct (Bsign x) eqn:Sx; cbn [ev].
    + rewrite rc_small; auto. pose proof (B2R_sign_t x Sx). pose proof (B2R_sign_t y (eq_sym S)). lra.
    + rewrite rc_big; auto. pose proof (B2R_sign x Sx). pose proof (B2R_sign y (eq_sym S)). lra.
Qed.
Lemma sub_ff x y : bfin x -> bfin y -> nn (bsub x y) /\ ev (bsub x y) = rc (B2R x - B2R y).
Proof.
  intros Fx Fy. pose proof (Bminus_correct 53 1024 _ _ mode_NE x y Fx Fy) as C.
  change (round radix2 fexp64 (round_mode mode_NE) (B2R x - B2R y)) with (rnd (B2R x - B2R y)) in C.
  change (bpow radix2 1024) with maxR in C. change (Bminus mode_NE x y) with (bsub x y) in C.
  destruct (Rlt_bool_spec (Rabs (rnd (B2R x - B2R y))) maxR) as [L|L].
  - destruct C as (A & B & _). split; [now apply nn_fin|]. rewrite ev_fin by auto. now rewrite A, rc_in.
  - destruct C as (A & S). cbn in A. apply overflow_val in A. rewrite A. split; [reflexivity|]. destruct (Bsign x) eqn:Sx; cbn [ev].
    + rewrite rc_small; auto. pose proof (B2R_sign_t x Sx). destruct (Bsign y) eqn:Sy; [discriminate|]. pose proof (B2R_sign y Sy). lra.
    + rewrite rc_big; auto. pose proof (B2R_sign x Sx). destruct (Bsign y) eqn:Sy; [|discriminate]. pose proof (B2R_sign_t y Sy). lra.
Qed.
Lemma mul_ff x y : bfin x -> bfin y -> nn (bmul x y) /\ ev (bmul x y) = rc (B2R x * B2R y).
Proof.
  intros Fx Fy. pose proof (Bmult_correct 53 1024 _ _ mode_NE x y) as C.
  change (round radix2 fexp64 (round_mode mode_NE) (B2R x * B2R y)) with (rnd (B2R x * B2R y)) in C.
  change (bpow radix2 1024) with maxR in C. change (Bmult mode_NE x y) with (bmul x y) in C.
  destruct (Rlt_bool_spec (Rabs (rnd (B2R x * B2R y))) maxR) as [L|L].
  - destruct C as (A & B & _). rewrite Fx, Fy in B. split; [now apply nn_fin|]. rewrite ev_fin by auto. now rewrite A, rc_in.
  - cbn in C. apply overflow_val in C. rewrite C. split; [reflexivity|].
    destruct (Bsign x) eqn:Sx, (Bsign y) eqn:Sy; cbn [xorb ev];
      try pose proof (B2R_sign_t x Sx); try pose proof (B2R_sign_t y Sy); try pose proof (B2R_sign x Sx); try pose proof (B2R_sign y Sy).
    + rewrite rc_big; auto. nra.
    + rewrite rc_small; auto. nra.
    + rewrite rc_small; auto. nra.
    + rewrite rc_big; auto. nra.
Qed.
Lemma div_ff x y : bfin x -> bfin y -> B2R y <> 0 -> nn (bdiv x y) /\ ev (bdiv x y) = rc (B2R x / B2R y).
Proof.
  intros Fx Fy Ny. pose proof (Bdiv_correct 53 1024 _ _ mode_NE x y Ny) as C.
  change (round radix2 fexp64 (round_mode mode_NE) (B2R x / B2R y)) with (rnd (B2R x / B2R y)) in C.
  change (bpow radix2 1024) with maxR in C. change (Bdiv mode_NE x y) with (bdiv x y) in C.
  destruct (Rlt_bool_spec (Rabs (rnd (B2R x / B2R y))) maxR) as [L|L].
  - destruct C as (A & B & _). rewrite Fx in B. split; [now apply nn_fin|]. rewrite ev_fin by auto. now rewrite A, rc_in.
  - cbn in C. apply overflow_val in C. rewrite C. split; [reflexivity|].
    destruct (Bsign x) eqn:Sx, (Bsign y) eqn:Sy; cbn [xorb ev];
      try pose proof (B2R_sign_t x Sx); try pose proof (B2R_sign_t y Sy); try pose proof (B2R_sign x Sx); try pose proof (B2R_sign y Sy).
    + rewrite rc_big; auto. assert (/ B2R y < 0) by (apply Rinv_lt_0_compat; lra). unfold Rdiv. nra.
    + rewrite rc_small; auto. assert (0 < / B2R y) by (apply Rinv_0_lt_compat; lra). unfold Rdiv. nra.
    + rewrite rc_small; auto. assert (/ B2R y < 0) by (apply Rinv_lt_0_compat; lra). unfold Rdiv. nra.
    + rewrite rc_big; auto. assert (0 < / B2R y) by (apply Rinv_0_lt_compat; lra). unfold Rdiv. nra.
Qed.
Lemma opp_ev x : nn x -> nn (Bopp x) /\ ev (Bopp x) = - ev x.
Proof.
  intros N. destruct (nn_cases x N) as [F | [-> | ->]].
  - split; [apply nn_fin; now rewrite is_finite_Bopp|]. rewrite !ev_fin by (rewrite ?is_finite_Bopp; auto). apply B2R_Bopp.
  - split; [reflexivity|]. cbn. lra.
  - split; [reflexivity|]. cbn. lra.
Qed.
Lemma abs_ev x : nn x -> nn (Babs x) /\ ev (Babs x) = Rabs (ev x).
Proof.
  pose proof maxR_pos. intros N. destruct (nn_cases x N) as [F | [-> | ->]].
  - split; [apply nn_fin; now rewrite is_finite_Babs|]. rewrite !ev_fin by (rewrite ?is_finite_Babs; auto). apply B2R_Babs.
  - split; [reflexivity|]. cbn. rewrite Rabs_pos_eq; lra.
  - split; [reflexivity|]. cbn. rewrite Rabs_left; lra.
Qed.

(** ** monotone functions of one argument, on the numbers between [lo] and [hi] *)
Definition dom (lo hi : R) (x : b64) : Prop := nn x /\ lo <= ev x <= hi.
Definition maps (lo hi lo' hi' : R) (f : b64 -> b64) : Prop := forall x, dom lo hi x -> dom lo' hi' (f x).
Definition incr (lo hi : R) (f : b64 -> b64) : Prop := forall x y, dom lo hi x -> dom lo hi y -> ev x <= ev y -> ev (f x) <= ev (f y).
Definition decr (lo hi : R) (f : b64 -> b64) : Prop := forall x y, dom lo hi x -> dom lo hi y -> ev x <= ev y -> ev (f y) <= ev (f x).
Definition INF : R := maxR.
Lemma dom_all x : nn x -> dom (- maxR) maxR x. Proof. intros. split; auto. apply ev_bound. Qed.

(** the finite numbers and the two infinities, separately *)
Definition pI : b64 := B754_infinity false.
Definition mI : b64 := B754_infinity true.
Lemma incr_cases lo hi f :
  (forall x y, dom lo hi x -> dom lo hi y -> bfin x -> bfin y -> B2R x <= B2R y -> ev (f x) <= ev (f y)) ->
  (forall x, dom lo hi x -> bfin x -> maxR <= hi -> ev (f x) <= ev (f pI)) ->
  (forall x, dom lo hi x -> bfin x -> lo <= - maxR -> ev (f mI) <= ev (f x)) ->
  (maxR <= hi -> lo <= - maxR -> ev (f mI) <= ev (f pI)) -> incr lo hi f.
Proof.
  intros A B C D x y Dx Dy L. pose proof maxR_pos. destruct Dx as [Nx Bx] eqn:Ex, Dy as [Ny By] eqn:Ey.
  destruct (nn_cases x Nx) as [F | [-> | ->]], (nn_cases y Ny) as [F' | [-> | ->]]; try (rewrite ?ev_p, ?ev_m in L; pose proof (fin_lt _ F); lra);
    try (rewrite ?ev_p, ?ev_m in L; pose proof (fin_lt _ F'); lra); try (rewrite ?ev_p, ?ev_m in L; lra); try lra.
  - apply A; auto. now rewrite <- !ev_fin.
  - apply B; auto. cbn [ev] in By. lra.
  - apply C; auto. cbn [ev] in Bx. lra.
  - cbn [ev] in *. apply D; lra.
Qed.
Lemma decr_incr lo hi f : (forall x, dom lo hi x -> nn (f x)) -> incr lo hi (fun x => Bopp (f x)) -> decr lo hi f.
Proof.
  intros N H x y Dx Dy L. pose proof (H x y Dx Dy L) as Q. cbv beta in Q.
  rewrite (proj2 (opp_ev _ (N x Dx))), (proj2 (opp_ev _ (N y Dy))) in Q. lra.
Qed.
Ltac inf_fin c F := destruct c as [?s|?s| |?s ?m ?e ?B]; try discriminate F; reflexivity.
(** x + c, c + x, x - c, c - x *)
Lemma addr_inf c s : bfin c -> badd (B754_infinity s) c = B754_infinity s. Proof. intros F. inf_fin c F. Qed.
Lemma addl_inf c s : bfin c -> badd c (B754_infinity s) = B754_infinity s. Proof. intros F. inf_fin c F. Qed.
Lemma subr_inf c s : bfin c -> bsub (B754_infinity s) c = B754_infinity s. Proof. intros F. inf_fin c F. Qed.
Lemma subl_inf c s : bfin c -> bsub c (B754_infinity s) = B754_infinity (negb s). Proof. intros F. inf_fin c F. Qed.
Ltac infs := unfold pI, mI; cbn [ev negb];
  repeat match goal with |- context [ev ?z] => match z with pI => fail 1 | mI => fail 1 | _ => let Q := fresh in pose proof (ev_bound z) as Q; revert Q; generalize (ev z); intros end end; try lra.
Lemma badd_r_nn c x : bfin c -> nn x -> nn (badd x c).
Proof. intros Fc N. destruct (nn_cases x N) as [F | [-> | ->]]; [now apply add_ff|now rewrite addr_inf|now rewrite addr_inf]. Qed.
Lemma badd_r c : bfin c -> incr (- maxR) maxR (fun x => badd x c).
Proof.
  intros Fc. pose proof maxR_pos as M. apply incr_cases; intros.
  - rewrite (proj2 (add_ff x c H1 Fc)), (proj2 (add_ff y c H2 Fc)). apply rc_mono. lra.
  - unfold pI. rewrite addr_inf by auto. infs.
  - unfold mI. rewrite addr_inf by auto. infs.
  - unfold pI, mI. rewrite !addr_inf by auto. infs.
Qed.
Lemma badd_l_nn c x : bfin c -> nn x -> nn (badd c x).
Proof. intros Fc N. destruct (nn_cases x N) as [F | [-> | ->]]; [now apply add_ff|now rewrite addl_inf|now rewrite addl_inf]. Qed.
Lemma badd_l c : bfin c -> incr (- maxR) maxR (fun x => badd c x).
Proof.
  intros Fc. pose proof maxR_pos as M. apply incr_cases; intros.
  - rewrite (proj2 (add_ff c x Fc H1)), (proj2 (add_ff c y Fc H2)). apply rc_mono. lra.
  - unfold pI. rewrite addl_inf by auto. infs.
  - unfold mI. rewrite addl_inf by auto. infs.
  - unfold pI, mI. rewrite !addl_inf by auto. infs.
Qed.
Lemma bsub_r_nn c x : bfin c -> nn x -> nn (bsub x c).
Proof. intros Fc N. destruct (nn_cases x N) as [F | [-> | ->]]; [now apply sub_ff|now rewrite subr_inf|now rewrite subr_inf]. Qed.
Lemma bsub_r c : bfin c -> incr (- maxR) maxR (fun x => bsub x c).
Proof.
  intros Fc. pose proof maxR_pos as M. apply incr_cases; intros.
  - rewrite (proj2 (sub_ff x c H1 Fc)), (proj2 (sub_ff y c H2 Fc)). apply rc_mono. lra.
  - unfold pI. rewrite subr_inf by auto. infs.
  - unfold mI. rewrite subr_inf by auto. infs.
  - unfold pI, mI. rewrite !subr_inf by auto. infs.
Qed.
Lemma bsub_l_nn c x : bfin c -> nn x -> nn (bsub c x).
Proof. intros Fc N. destruct (nn_cases x N) as [F | [-> | ->]]; [now apply sub_ff|now rewrite subl_inf|now rewrite subl_inf]. Qed.
Lemma bsub_l c : bfin c -> decr (- maxR) maxR (fun x => bsub c x).
Proof.
  intros Fc x y [Nx _] [Ny _] L. pose proof maxR_pos as M.
  pose proof (ev_bound (bsub c x)) as E1. pose proof (ev_bound (bsub c y)) as E2.
  destruct (nn_cases x Nx) as [F | [-> | ->]], (nn_cases y Ny) as [F' | [-> | ->]]; rewrite ?subl_inf in * by auto; cbn [negb] in *; rewrite ?ev_p, ?ev_m in *; try lra.
  - rewrite !ev_fin in L by auto. rewrite (proj2 (sub_ff c x Fc F)), (proj2 (sub_ff c y Fc F')). apply rc_mono. lra.
  - pose proof (fin_lt _ F). lra.
  - pose proof (fin_lt _ F'). lra.
Qed.
(** x * c, c * x for a positive finite c, and x / c *)
Definition bpos (c : b64) : Prop := bfin c /\ 0 < B2R c.
Lemma bpos_shape c : bpos c -> exists m e B, c = B754_finite false m e B.
Proof.
  intros [F P]. destruct c as [s|s| |s m e B]; try discriminate F; [cbn in P; lra|]. destruct s; [|eauto].
  exfalso. assert (B2R (B754_finite true m e B : b64) <= 0) by (apply B2R_sign_t; reflexivity). lra.
Qed.
Lemma mulr_inf c s : bpos c -> bmul (B754_infinity s) c = B754_infinity s.
Proof. intros H. destruct (bpos_shape c H) as (m & e & B & ->). destruct s; reflexivity. Qed.
Lemma mull_inf c s : bpos c -> bmul c (B754_infinity s) = B754_infinity s.
Proof. intros H. destruct (bpos_shape c H) as (m & e & B & ->). destruct s; reflexivity. Qed.
Lemma divr_inf c s : bpos c -> bdiv (B754_infinity s) c = B754_infinity s.
Proof. intros H. destruct (bpos_shape c H) as (m & e & B & ->). destruct s; reflexivity. Qed.
Lemma bmul_r_nn c x : bpos c -> nn x -> nn (bmul x c).
Proof. intros P N. destruct (nn_cases x N) as [F | [-> | ->]]; [apply mul_ff; auto; apply P|now rewrite mulr_inf|now rewrite mulr_inf]. Qed.
Lemma bmul_r c : bpos c -> incr (- maxR) maxR (fun x => bmul x c).
Proof.
  intros P. pose proof maxR_pos as M. destruct P as [Fc Pc] eqn:Eq. apply incr_cases; intros.
  - rewrite (proj2 (mul_ff x c H1 Fc)), (proj2 (mul_ff y c H2 Fc)). apply rc_mono. nra.
  - unfold pI. rewrite mulr_inf by auto. infs.
  - unfold mI. rewrite mulr_inf by auto. infs.
  - unfold pI, mI. rewrite !mulr_inf by auto. infs.
Qed.
Lemma bmul_l_nn c x : bpos c -> nn x -> nn (bmul c x).
Proof. intros P N. destruct (nn_cases x N) as [F | [-> | ->]]; [apply mul_ff; auto; apply P|now rewrite mull_inf|now rewrite mull_inf]. Qed.
Lemma bmul_l c : bpos c -> incr (- maxR) maxR (fun x => bmul c x).
Proof.
  intros P. pose proof maxR_pos as M. destruct P as [Fc Pc] eqn:Eq. apply incr_cases; intros.
  - rewrite (proj2 (mul_ff c x Fc H1)), (proj2 (mul_ff c y Fc H2)). apply rc_mono. nra.
  - unfold pI. rewrite mull_inf by auto. infs.
  - unfold mI. rewrite mull_inf by auto. infs.
  - unfold pI, mI. rewrite !mull_inf by auto. infs.
Qed.
Lemma bdiv_r_nn c x : bpos c -> nn x -> nn (bdiv x c).
Proof. intros P N. destruct (nn_cases x N) as [F | [-> | ->]]; [apply div_ff; auto; [apply P|destruct P; lra]|now rewrite divr_inf|now rewrite divr_inf]. Qed.
Lemma bdiv_r c : bpos c -> incr (- maxR) maxR (fun x => bdiv x c).
Proof.
  intros P. pose proof maxR_pos as M. destruct P as [Fc Pc] eqn:Eq. apply incr_cases; intros.
  - rewrite (proj2 (div_ff x c H1 Fc ltac:(lra))), (proj2 (div_ff y c H2 Fc ltac:(lra))). apply rc_mono.
    apply Rmult_le_compat_r; auto. left. now apply Rinv_0_lt_compat.
  - unfold pI. rewrite divr_inf by auto. infs.
  - unfold mI. rewrite divr_inf by auto. infs.
  - unfold pI, mI. rewrite !divr_inf by auto. infs.
Qed.
(** c / x for positive x (infinity included) *)
Lemma divl_inf c : bfin c -> ev (bdiv c pI) = 0 /\ nn (bdiv c pI).
Proof. intros F. unfold pI. destruct c as [s|s| |s m e B]; try discriminate F; split; try reflexivity; destruct s; reflexivity. Qed.
Lemma bdiv_l_nn c x : bfin c -> nn x -> 0 < ev x -> nn (bdiv c x).
Proof.
  intros Fc N P. destruct (nn_cases x N) as [F | [-> | ->]].
  - rewrite ev_fin in P by auto. apply div_ff; auto. lra.
  - now apply divl_inf.
  - pose proof maxR_pos. cbn in P. lra.
Qed.
Lemma bdiv_l c lo x y : bpos c -> 0 < lo -> dom lo maxR x -> dom lo maxR y -> ev x <= ev y -> ev (bdiv c y) <= ev (bdiv c x).
Proof.
  intros [Fc Pc] Hlo [Nx Bx] [Ny By] L. pose proof maxR_pos as M.
  assert (G : forall z, nn z -> lo <= ev z -> 0 <= ev (bdiv c z)).
  { intros z Nz Bz. destruct (nn_cases z Nz) as [F | [-> | ->]].
    - rewrite ev_fin in Bz by auto. rewrite (proj2 (div_ff c z Fc F ltac:(lra))). rewrite <- rc_0 at 1. apply rc_mono.
      apply Rmult_le_pos; [lra|]. left. apply Rinv_0_lt_compat. lra.
    - fold pI. rewrite (proj1 (divl_inf c Fc)). lra.
    - cbn [ev] in Bz. lra. }
  destruct (nn_cases y Ny) as [F' | [-> | ->]].
  - destruct (nn_cases x Nx) as [F | [-> | ->]].
    + rewrite !ev_fin in * by auto. rewrite (proj2 (div_ff c x Fc F ltac:(lra))), (proj2 (div_ff c y Fc F' ltac:(lra))). apply rc_mono.
      apply Rmult_le_compat_l; [lra|]. apply Rinv_le_contravar; lra.
    + pose proof (fin_lt _ F'). rewrite ?ev_p, ?ev_m in L. lra.
    + cbn [ev] in Bx. lra.
  - fold pI. rewrite (proj1 (divl_inf c Fc)). apply G; auto. lra.
  - cbn [ev] in By. lra.
Qed.
(** quotient of a nonnegative by a positive number, in both arguments *)
Lemma bdiv_pos_nonneg x y : bfin x -> 0 <= B2R x -> nn y -> 0 < ev y -> 0 <= ev (bdiv x y).
Proof.
  intros Fx Px N P. destruct (nn_cases y N) as [F | [-> | ->]].
  - rewrite ev_fin in P by auto. rewrite (proj2 (div_ff x y Fx F ltac:(lra))). rewrite <- rc_0. apply rc_mono.
    apply Rmult_le_pos; auto. left. now apply Rinv_0_lt_compat.
  - fold pI. rewrite (proj1 (divl_inf x Fx)). lra.
  - pose proof maxR_pos. cbn in P. lra.
Qed.
