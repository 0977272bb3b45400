(** Densities in binary64 that are negative, return NaN, or are not unimodal in the log form. *)
From Coq Require Import ZArith QArith Reals Bool Lra Lia.
From Verif Require Import Num Sanity Prob Dens B64 B64R SpecB64 SpecB64D B64CdfBad.
From Flocq Require Import IEEE754.BinarySingleNaN.
Local Open Scope b64_scope.

Lemma nan_add_r x : badd x B754_nan = B754_nan. Proof. destruct x; reflexivity. Qed.
Lemma nan_sub_r x : bsub x B754_nan = B754_nan. Proof. destruct x; reflexivity. Qed.
Lemma nan_mul_r x : bmul x B754_nan = B754_nan. Proof. destruct x; reflexivity. Qed.
Lemma nan_div_r x : bdiv x B754_nan = B754_nan. Proof. destruct x; reflexivity. Qed.
Lemma nan_add_l x : badd B754_nan x = B754_nan. Proof. reflexivity. Qed.
Lemma nan_sub_l x : bsub B754_nan x = B754_nan. Proof. reflexivity. Qed.
Ltac bq := apply b64_eq; vm_compute; reflexivity.
Ltac bt := vm_compute; reflexivity.

Section Bad.
Variable F : TF.
Notation NB := (B64_Num F).

(** Cauchy with a zero scale, at the location *)
Lemma dcauchy_nan : dcauchy (N:=NB) (bofZ 0) (bofZ 0) (bofZ 0) false = B754_nan.
Proof.
  unfold dcauchy. replace (cauchy_sanity3 (N:=NB) (bofZ 0) (bofZ 0) (bofZ 0)) with true by bt. replace (any_inf3 (N:=NB) (bofZ 0) (bofZ 0) (bofZ 0)) with false by bt.
  change (bdiv (bofZ 1) (bmul (bmul (bofZ 0) (t_PI F)) (badd (bofZ 1) (bmul (bdiv (bsub (bofZ 0) (bofZ 0)) (bofZ 0)) (bdiv (bsub (bofZ 0) (bofZ 0)) (bofZ 0))))) = B754_nan).
  replace (badd (bofZ 1) (bmul (bdiv (bsub (bofZ 0) (bofZ 0)) (bofZ 0)) (bdiv (bsub (bofZ 0) (bofZ 0)) (bofZ 0)))) with (B754_nan : b64) by bq. now rewrite nan_mul_r, nan_div_r.
Qed.
(** logistic with a zero scale, at the location *)
Lemma dlogis_nan0 : dlogis (N:=NB) (bofZ 0) (bofZ 0) (bofZ 0) true = B754_nan.
Proof.
  unfold dlogis. replace (logis_sanity3 (N:=NB) (bofZ 0) (bofZ 0) (bofZ 0)) with true by bt. replace (any_inf3 (N:=NB) (bofZ 0) (bofZ 0) (bofZ 0)) with false by bt.
  change (dlogis_log_compute (N:=NB) (bdiv (bsub (bofZ 0) (bofZ 0)) (bofZ 0)) (bofZ 0) = B754_nan). replace (bdiv (bsub (bofZ 0) (bofZ 0)) (bofZ 0)) with (B754_nan : b64) by bq. reflexivity.
Qed.
(** logistic with x - mu overflowing *)
Lemma dlogis_nan : t_exp F plus_inf = plus_inf -> t_log F plus_inf = plus_inf -> b64_fin (t_log F (bofZ 1)) ->
  dlogis (N:=NB) (Bopp (btwo 1023)) (btwo 1023) (bofZ 1) true = B754_nan.
Proof.
  intros H1 H2 [H3 H4]. unfold dlogis. replace (logis_sanity3 (N:=NB) (Bopp (btwo 1023)) (btwo 1023) (bofZ 1)) with true by bt. replace (any_inf3 (N:=NB) (Bopp (btwo 1023)) (btwo 1023) (bofZ 1)) with false by bt.
  change (dlogis_log_compute (N:=NB) (bdiv (bsub (Bopp (btwo 1023)) (btwo 1023)) (bofZ 1)) (bofZ 1) = B754_nan).
  replace (bdiv (bsub (Bopp (btwo 1023)) (btwo 1023)) (bofZ 1)) with minus_inf by bq.
  change (dlogis_log_compute (N:=NB) minus_inf (bofZ 1)) with (bsub (bsub (Bopp minus_inf) (t_log F (bofZ 1))) (bmul (bofZ 2) (t_log F (badd (bofZ 1) (t_exp F (Bopp minus_inf)))))).
  change (Bopp minus_inf) with plus_inf. rewrite H1. change (badd (bofZ 1) plus_inf) with plus_inf. rewrite H2. change (bmul (bofZ 2) plus_inf) with plus_inf.
  destruct (t_log F (bofZ 1)) as [s|[|]| |s m e B]; try discriminate H3; try discriminate H4; reflexivity.
Qed.
(** inverse Gaussian with 2 mu mu x underflowing: zero over zero *)
Lemma dinvgauss_nan : dinvgauss (N:=NB) (btwo (-600)) (btwo (-600)) (bofZ 1) true = B754_nan.
Proof.
  unfold dinvgauss. replace (invgauss_sanity3 (N:=NB) (btwo (-600)) (btwo (-600)) (bofZ 1)) with true by bt. cbn [negb].
  replace (ltb (Num:=NB) (btwo (-600)) (ofZ (Num:=NB) 0)) with false by bt.
  replace (any_inf3 (N:=NB) (btwo (-600)) (btwo (-600)) (bofZ 1)) with false by bt. replace (eqb (Num:=NB) (btwo (-600)) (ofZ (Num:=NB) 0)) with false by bt.
  replace (eqb (Num:=NB) (bofZ 1) (ofZ (Num:=NB) 0)) with false by bt. cbn [orb].
  change (badd (dinvgauss_term_1 (N:=NB) (btwo (-600)) (bofZ 1))
    (bdiv (bmul (Bopp (bofZ 1)) (bmul (bsub (btwo (-600)) (btwo (-600))) (bsub (btwo (-600)) (btwo (-600))))) (bmul (bmul (bmul (bofZ 2) (btwo (-600))) (btwo (-600))) (btwo (-600)))) = B754_nan).
  match goal with |- badd _ ?t = _ => replace t with (B754_nan : b64) by bq end. apply nan_add_r.
Qed.
(** Weibull with shape one at zero: zero times minus infinity *)
Lemma dweibull_nan : t_log F (bofZ 0) = minus_inf -> dweibull (N:=NB) (bofZ 0) (bofZ 1) (bofZ 1) true = B754_nan.
Proof.
  intros H. unfold dweibull. replace (weibull_sanity3 (N:=NB) (bofZ 0) (bofZ 1) (bofZ 1)) with true by bt. cbn [negb].
  replace (ltb (Num:=NB) (bofZ 0) (ofZ (Num:=NB) 0)) with false by bt. replace (eqb (Num:=NB) (bofZ 0) (ofZ (Num:=NB) 0)) with true by bt. replace (ltb (Num:=NB) (bofZ 1) (ofZ (Num:=NB) 1)) with false by bt.
  replace (is_posinf (Num:=NB) (bofZ 0)) with false by bt. cbn [andb].
  change (bsub (badd (t_log F (bdiv (bofZ 1) (bofZ 1))) (bmul (bsub (bofZ 1) (bofZ 1)) (t_log F (bdiv (bofZ 0) (bofZ 1))))) (t_pow F (bdiv (bofZ 0) (bofZ 1)) (bofZ 1)) = B754_nan).
  replace (bdiv (bofZ 0) (bofZ 1)) with (bofZ 0) by bq. rewrite H. replace (bmul (bsub (bofZ 1) (bofZ 1)) minus_inf) with (B754_nan : b64) by bq. now rewrite nan_add_r.
Qed.
(** F distribution: infinity times zero *)
Lemma df_val x a b : Num.is_nan (Num:=NB) x = false -> f_sanity3 (N:=NB) x a b = true -> ltb (Num:=NB) x (bofZ 0) = false -> eqb (Num:=NB) x (bofZ 0) = false -> is_posinf (Num:=NB) x = false ->
  any_posinf2 (N:=NB) a b = false ->
  df (N:=NB) x a b false = bmul (dbeta (N:=NB) (bdiv (bdiv (bmul a x) b) (badd (bofZ 1) (bdiv (bmul a x) b))) (bdiv a (bofZ 2)) (bdiv b (bofZ 2)) false)
    (df_compute_adj (N:=NB) x (bdiv (bdiv (bdiv a (bofZ 2)) (bdiv b (bofZ 2))) (badd (bofZ 1) (bdiv (bmul a x) b)))).
Proof. intros _ H1 H2 H3 H4 H5. unfold df. rewrite H1. cbn [negb]. change (ofZ (Num:=NB) 0) with (bofZ 0). rewrite H2, H3, H4, H5. reflexivity. Qed.
Lemma df_nan : df (N:=NB) (btwo 60) (bofZ 1) (bofZ 1) false = B754_nan.
Proof.
  rewrite df_val by bt. change (df_compute_adj (N:=NB)) with (df_compute_adj (N:=NB)).
  replace (bdiv (bdiv (bmul (bofZ 1) (btwo 60)) (bofZ 1)) (badd (bofZ 1) (bdiv (bmul (bofZ 1) (btwo 60)) (bofZ 1)))) with (bofZ 1) by bq.
  match goal with |- bmul _ ?t = _ => replace t with (bofZ 0) by bq end.
  replace (dbeta (N:=NB) (bofZ 1) (bdiv (bofZ 1) (bofZ 2)) (bdiv (bofZ 1) (bofZ 2)) false) with (plus_inf : b64) by (apply b64_eq; vm_compute; reflexivity). reflexivity.
Qed.
(** F distribution: a negative density *)
Definition df_x : b64 := bofZ 84522645806394096.
Lemma df_negative : df (N:=NB) df_x (bofZ 3) (bofZ 2) false ≺ bofZ 0.
Proof.
  rewrite df_val by bt.
  match goal with |- bmul ?u ?t ≺ _ => replace u with (blit (3#2)) by (apply b64_eq; vm_compute; reflexivity) end. vm_compute. reflexivity.
Qed.
(** Student with a huge number of degrees of freedom: infinity minus infinity *)
Lemma inf_sub_nan w : bsub (bsub plus_inf w) plus_inf = B754_nan.
Proof. destruct w as [s|s| |s m e B]; try destruct s; reflexivity. Qed.
Lemma dt_nan : lgamma_over F -> dt (N:=NB) (bofZ 0) (btwo 1022) true = B754_nan.
Proof.
  intros H. unfold dt. replace (t_sanity2 (N:=NB) (bofZ 0) (btwo 1022)) with true by bt. replace (is_inf (N:=NB) (bofZ 0)) with false by bt.
  replace (is_posinf (Num:=NB) (btwo 1022)) with false by bt.
  change (badd (bsub (bsub (t_lgamma F (badd (bdiv (btwo 1022) (bofZ 2)) (blit (1#2)))) (bmul (blit (1#2)) (badd (t_log F (btwo 1022)) (t_LOG_PI F)))) (t_lgamma F (bdiv (btwo 1022) (bofZ 2))))
        (bmul (Bopp (badd (bdiv (btwo 1022) (bofZ 2)) (blit (1#2)))) (t_log F (badd (bofZ 1) (bmul (bdiv (bofZ 0) (btwo 1022)) (bofZ 0))))) = B754_nan).
  rewrite (H (badd (bdiv (btwo 1022) (bofZ 2)) (blit (1#2)))) by bt. rewrite (H (bdiv (btwo 1022) (bofZ 2))) by bt. now rewrite inf_sub_nan.
Qed.
(** beta with huge parameters *)
Lemma dbeta_nan : lgamma_over F -> dbeta (N:=NB) (blit (1#2)) (btwo 1020) (btwo 1020) true = B754_nan.
Proof.
  intros H. unfold dbeta. replace (beta_sanity3 (N:=NB) (blit (1#2)) (btwo 1020) (btwo 1020)) with true by bt. cbn [negb].
  replace (ltb (Num:=NB) (blit (1#2)) (ofZ (Num:=NB) 0)) with false by bt. replace (ltb (Num:=NB) (ofZ (Num:=NB) 1) (blit (1#2))) with false by bt.
  replace (eqb (Num:=NB) (btwo 1020) (ofZ (Num:=NB) 0)) with false by bt. replace (any_posinf2 (N:=NB) (btwo 1020) (btwo 1020)) with false by bt.
  replace (eqb (Num:=NB) (blit (1#2)) (ofZ (Num:=NB) 0)) with false by bt. replace (eqb (Num:=NB) (blit (1#2)) (ofZ (Num:=NB) 1)) with false by bt. cbn [orb exp_if negb].
  change (badd (badd (Bopp (bsub (badd (t_lgamma F (btwo 1020)) (t_lgamma F (btwo 1020))) (t_lgamma F (badd (btwo 1020) (btwo 1020)))))
    (bmul (bsub (btwo 1020) (bofZ 1)) (t_log F (blit (1#2))))) (bmul (bsub (btwo 1020) (bofZ 1)) (t_log F (bsub (bofZ 1) (blit (1#2))))) = B754_nan).
  rewrite (H (btwo 1020)) by bt. rewrite (H (badd (btwo 1020) (btwo 1020))) by bt. reflexivity.
Qed.
(** gamma with a huge shape *)
Lemma dgamma_nan : lgamma_over F -> bmul (btwo 1023) (t_log F (bofZ 10)) = plus_inf -> dgamma (N:=NB) (bofZ 10) (btwo 1023) (bofZ 1) true = B754_nan.
Proof.
  intros H L. unfold dgamma. replace (gamma_sanity3 (N:=NB) (bofZ 10) (btwo 1023) (bofZ 1)) with true by bt. cbn [negb].
  replace (ltb (Num:=NB) (bofZ 10) (ofZ (Num:=NB) 0)) with false by bt. replace (eqb (Num:=NB) (bofZ 10) (ofZ (Num:=NB) 0)) with false by bt. replace (eqb (Num:=NB) (btwo 1023) (ofZ (Num:=NB) 0)) with false by bt.
  replace (any_posinf3 (N:=NB) (bofZ 10) (btwo 1023) (bofZ 1)) with false by bt. cbn [orb exp_if negb].
  change (bsub (badd (bsub (Bopp (t_lgamma F (btwo 1023))) (bmul (btwo 1023) (t_log F (bofZ 1)))) (bmul (bsub (btwo 1023) (bofZ 1)) (t_log F (bofZ 10)))) (bdiv (bofZ 10) (bofZ 1)) = B754_nan).
  rewrite (H (btwo 1023)) by bt. replace (bsub (btwo 1023) (bofZ 1)) with (btwo 1023) by bq. rewrite L.
  destruct (bmul (btwo 1023) (t_log F (bofZ 1))) as [s|s| |s m e B]; try destruct s; reflexivity.
Qed.
(** exponential, log form: at infinity the density zero is returned instead of its logarithm *)
Lemma dexp_log_inf : dexp (N:=NB) plus_inf (bofZ 1) true = bofZ 0.
Proof. unfold dexp. replace (exp_sanity2 (N:=NB) plus_inf (bofZ 1)) with true by bt. reflexivity. Qed.
Lemma dexp_log_1 : t_log F (bofZ 1) = bofZ 0 -> dexp (N:=NB) (bofZ 1) (bofZ 1) true = bofZ (-1).
Proof.
  intros H. unfold dexp. replace (exp_sanity2 (N:=NB) (bofZ 1) (bofZ 1)) with true by bt. replace (is_posinf (Num:=NB) (bofZ 1)) with false by bt. replace (ltb (Num:=NB) (bofZ 1) (ofZ (Num:=NB) 0)) with false by bt.
  change (bsub (t_log F (bofZ 1)) (bmul (bofZ 1) (bofZ 1)) = bofZ (-1)). rewrite H. bq.
Qed.
End Bad.
