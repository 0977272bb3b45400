(** Distribution functions in binary64 that leave [0,1], return NaN or decrease. *)
From Coq Require Import ZArith QArith Reals Bool Lra Lia.
From Verif Require Import Num Sanity Prob B64 B64R SpecB64.
From Flocq Require Import IEEE754.BinarySingleNaN.

(** m * 2^e *)
Definition bz (m e : Z) : b64 := binary_normalize 53 1024 b64_prec_gt_0 b64_prec_lt_emax mode_NE m e false.
Local Notation fin x := (is_finite (prec:=53) (emax:=1024) x = true).
(** replace every finite constant by its value *)
Lemma b64_eq (x y : b64) : B2SF x = B2SF y -> x = y. Proof. apply B2SF_inj. Qed.

Section Bad.
Variable F : TF.
Notation NB := (B64_Num F).
Local Open Scope b64_scope.

(** Student t, two degrees of freedom: x*x overflows *)
Definition t2_big : b64 := bz 1 600.
Lemma pt2_val x : fin x -> pt (N:=NB) x (bofZ 2) false = badd (blit (1#2)) (bdiv x (bmul (bofZ 2) (Bsqrt mode_NE (badd (bmul x x) (bofZ 2))))).
Proof.
  intros Fx. unfold pt, t_sanity2. replace (Num.is_nan (Num:=NB) x) with false by (destruct x; try reflexivity; discriminate Fx).
  change (t_sanity1 (N:=NB) (bofZ 2)) with true. cbn [negb andb].
  replace (is_posinf (Num:=NB) x) with false by (destruct x; try reflexivity; discriminate Fx).
  replace (is_neginf (Num:=NB) x) with false by (destruct x; try reflexivity; discriminate Fx). reflexivity.
Qed.
Lemma pt2_half : pt (N:=NB) t2_big (bofZ 2) false = blit (1#2) /\ pt (N:=NB) (Bopp t2_big) (bofZ 2) false = blit (1#2).
Proof. rewrite !pt2_val by (vm_compute; reflexivity). split; apply b64_eq; vm_compute; reflexivity. Qed.
Lemma pt2_not_mono : bofZ 10 ≤ t2_big /\ pt (N:=NB) t2_big (bofZ 2) false ≺ pt (N:=NB) (bofZ 10) (bofZ 2) false.
Proof.
  split; [vm_compute; reflexivity|]. rewrite !pt2_val by (vm_compute; reflexivity). vm_compute. reflexivity.
Qed.
(** it also decreases between two consecutive doubles near 481.6 *)
Definition t2_a : b64 := bz 8472621507361565 (-44).
Definition t2_b : b64 := bz 8472621507361566 (-44).
Lemma pt2_dip : t2_a ≺ t2_b /\ pt (N:=NB) t2_b (bofZ 2) false ≺ pt (N:=NB) t2_a (bofZ 2) false.
Proof. split; [vm_compute; reflexivity|]. rewrite !pt2_val by (vm_compute; reflexivity). vm_compute. reflexivity. Qed.

(** logistic: 2*sigma overflows *)
Lemma plogis_nan : t_tanh F B754_nan = B754_nan ->
  let x := bz 1 1023 in let mu := Bopp x in let sigma := bz 1 1023 in
  fin x /\ fin mu /\ b64_pos sigma /\ plogis (N:=NB) x mu sigma false = B754_nan.
Proof.
  intros H. cbv zeta. split; [vm_compute; reflexivity|]. split; [vm_compute; reflexivity|]. split; [split; vm_compute; reflexivity|].
  unfold plogis.
  replace (logis_sanity3 (N:=NB) (bz 1 1023) (Bopp (bz 1 1023)) (bz 1 1023)) with true by (vm_compute; reflexivity).
  replace (any_inf3 (N:=NB) (bz 1 1023) (Bopp (bz 1 1023)) (bz 1 1023)) with false by (vm_compute; reflexivity).
  change (eqb (bz 1 1023) (ofZ 0)) with (Beqb (bz 1 1023) (bofZ 0)). replace (Beqb (bz 1 1023) (bofZ 0)) with false by (vm_compute; reflexivity). cbn [negb orb log_if].
  unfold plogis_compute. cbn [mul add tanh lit ofZ sub div B64_Num].
  replace (bdiv (bsub (bz 1 1023) (Bopp (bz 1 1023))) (bmul (bofZ 2) (bz 1 1023))) with (B754_nan : b64) by (apply b64_eq; vm_compute; reflexivity).
  rewrite H. apply b64_eq. vm_compute. reflexivity.
Qed.

(** F distribution *)
Lemma pf_val x a b : fin x -> fin a -> fin b -> Bltb a beps = false -> Bltb b beps = false -> Bltb x beps = false ->
  pf (N:=NB) x a b false = t_incbeta F (bdiv a (bofZ 2)) (bdiv b (bofZ 2)) (bdiv (bdiv (bmul a x) b) (badd (bofZ 1) (bdiv (bmul a x) b))).
Proof.
  intros Fx Fa Fb Ea Eb Ex. unfold pf, f_sanity3, f_sanity2, any_nan2, any_posinf2.
  change (ltb a epsilon) with (Bltb a beps). change (ltb b epsilon) with (Bltb b beps). change (ltb x epsilon) with (Bltb x beps). rewrite Ea, Eb, Ex.
  assert (K : forall z, fin z -> Num.is_nan (Num:=NB) z = false /\ is_posinf (Num:=NB) z = false) by (intros z Fz; destruct z; try discriminate Fz; split; reflexivity).
  rewrite (proj1 (K x Fx)), (proj1 (K a Fa)), (proj1 (K b Fb)), (proj2 (K x Fx)), (proj2 (K a Fa)), (proj2 (K b Fb)). reflexivity.
Qed.
Lemma pf_nan : (forall a b, t_incbeta F a b B754_nan = B754_nan) ->
  let x := bz 1 1000 in let df1 := bz 1 100 in let df2 := bofZ 1 in
  fin x /\ b64_pos df1 /\ b64_pos df2 /\ pf (N:=NB) x df1 df2 false = B754_nan.
Proof.
  intros H. cbv zeta. split; [vm_compute; reflexivity|]. split; [split; vm_compute; reflexivity|]. split; [split; vm_compute; reflexivity|].
  rewrite pf_val by (vm_compute; reflexivity).
  match goal with |- t_incbeta F _ _ ?z = _ => replace z with (B754_nan : b64) by (apply b64_eq; vm_compute; reflexivity) end. apply H.
Qed.
Definition f_a : b64 := bz 8653802728008202 (-51).
Definition f_b : b64 := bz 8653802728008203 (-51).
Lemma pf_dip : (forall x, t_incbeta F (bofZ 1) (bofZ 1) x = x) ->
  f_a ≺ f_b /\ pf (N:=NB) f_b (bofZ 2) (bofZ 2) false ≺ pf (N:=NB) f_a (bofZ 2) (bofZ 2) false.
Proof.
  intros H. split; [vm_compute; reflexivity|]. rewrite !pf_val by (vm_compute; reflexivity).
  replace (bdiv (bofZ 2) (bofZ 2)) with (bofZ 1) by (apply b64_eq; vm_compute; reflexivity). rewrite !H. vm_compute. reflexivity.
Qed.

(** inverse Gaussian: infinity times zero *)
Definition sqrt2d : b64 := bz 6369051672525773 (-52).
Lemma pinvgauss_nan : t_SQRT_2 F = sqrt2d -> t_exp F (bofZ 800) = B754_infinity false ->
  (forall z, z ≤ bofZ (-20) -> t_erf F z = bofZ (-1)) -> t_erf F (bofZ 0) = bofZ 0 ->
  pinvgauss (N:=NB) (bofZ 1) (bofZ 1) (bofZ 400) false = B754_nan.
Proof.
  intros HS HX HE H0. unfold pinvgauss.
  replace (invgauss_sanity3 (N:=NB) (bofZ 1) (bofZ 1) (bofZ 400)) with true by (vm_compute; reflexivity).
  change (ltb (bofZ 1) (ofZ 0)) with (Bltb (bofZ 1) (bofZ 0)). replace (Bltb (bofZ 1) (bofZ 0)) with false by (vm_compute; reflexivity).
  replace (any_inf3 (N:=NB) (bofZ 1) (bofZ 1) (bofZ 400)) with false by (vm_compute; reflexivity).
  change (eqb (bofZ 1) (ofZ 0)) with (Beqb (bofZ 1) (bofZ 0)). replace (Beqb (bofZ 1) (bofZ 0)) with false by (vm_compute; reflexivity).
  change (eqb (bofZ 400) (ofZ 0)) with (Beqb (bofZ 400) (bofZ 0)). replace (Beqb (bofZ 400) (bofZ 0)) with false by (vm_compute; reflexivity).
  cbn [negb orb log_if]. unfold pinvgauss_compute, pinvgauss_term_2. cbn [add mul div sub neg ofZ exp sqrt B64_Num].
  replace (bdiv (bmul (bofZ 2) (bofZ 400)) (bofZ 1)) with (bofZ 800) by (apply b64_eq; vm_compute; reflexivity). rewrite HX.
  replace (bmul (Bopp (Bsqrt mode_NE (bdiv (bofZ 400) (bofZ 1)))) (badd (bdiv (bofZ 1) (bofZ 1)) (bofZ 1))) with (bofZ (-40)) by (apply b64_eq; vm_compute; reflexivity).
  assert (P : pnorm_std (N:=NB) (bofZ (-40)) false = bofZ 0).
  { unfold pnorm_std, pnorm. replace (norm_sanity3 (N:=NB) (bofZ (-40)) (ofZ 0) (ofZ 1)) with true by (vm_compute; reflexivity).
    replace (any_inf3 (N:=NB) (bofZ (-40)) (ofZ 0) (ofZ 1)) with false by (vm_compute; reflexivity).
    change (eqb (ofZ 1) (ofZ 0)) with (Beqb (bofZ 1) (bofZ 0)). replace (Beqb (bofZ 1) (bofZ 0)) with false by (vm_compute; reflexivity). cbn [negb orb log_if].
    unfold pnorm_compute. cbn [add mul div sub neg ofZ erf lit SQRT_2 B64_Num]. rewrite HS.
    rewrite HE by (vm_compute; reflexivity). apply b64_eq. vm_compute. reflexivity. }
  rewrite P. replace (bmul (B754_infinity false) (bofZ 0)) with (B754_nan : b64) by (apply b64_eq; vm_compute; reflexivity).
  destruct (pinvgauss_term_1 (N:=NB) (bofZ 1) (bofZ 1) (bofZ 400)) as [s|s| |s m e B]; try destruct s; reflexivity.
Qed.

(** Poisson: the sum times the exponential exceeds one *)
Definition po_r : b64 := bz 5025497527581830 (-79).
Definition po_e : b64 := bz 9007199179855244 (-53).
Lemma ppois_gt1 : t_exp F (Bopp po_r) = po_e -> t_powZ F po_r 1 = po_r -> t_powZ F po_r 2 = bmul po_r po_r ->
  t_factorial F 1 = bofZ 1 -> t_factorial F 2 = bofZ 2 ->
  b64_pos po_r /\ bofZ 1 ≺ ppois (N:=NB) 2 po_r false.
Proof.
  intros HE H1 H2 G1 G2. split; [split; vm_compute; reflexivity|].
  unfold ppois. replace (pois_sanity (N:=NB) po_r) with true by (vm_compute; reflexivity).
  replace (is_posinf (Num:=NB) po_r) with false by (vm_compute; reflexivity). cbn [negb Z.ltb Z.compare log_if].
  unfold ppois_compute. change (ltb (ofZ 10) po_r) with (Bltb (bofZ 10) po_r). replace (Bltb (bofZ 10) po_r) with false by (vm_compute; reflexivity).
  cbn [orb Z.ltb Z.compare Pos.compare Pos.compare_cont].
  change (Z.to_nat 2 + 2)%nat with 4%nat. cbn [ppois_recur Z.eqb Pos.eqb Z.add Pos.add Pos.succ option_map Z.ltb Z.compare Pos.compare Pos.compare_cont].
  cbn [add mul div sub neg ofZ exp powZ factorial B64_Num]. rewrite HE, H1, H2, G1, G2. vm_compute. reflexivity.
Qed.
End Bad.
