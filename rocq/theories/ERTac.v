(** Tactics and basic facts for computing with [ER]. *)
From Coq Require Import Reals ZArith QArith Bool Lra Psatz.
From Verif Require Import Num Sanity ER.
Local Open Scope R_scope.

Lemma Rltb_true a b : Rltb a b = true <-> a < b.
Proof. unfold Rltb; destruct (Rlt_dec a b); split; intros; auto; discriminate. Qed.
Lemma Rltb_false a b : Rltb a b = false <-> b <= a.
Proof. unfold Rltb; destruct (Rlt_dec a b); split; intros; auto; try discriminate; lra. Qed.
Lemma Rleb_true a b : Rleb a b = true <-> a <= b.
Proof. unfold Rleb; destruct (Rle_dec a b); split; intros; auto; discriminate. Qed.
Lemma Rleb_false a b : Rleb a b = false <-> b < a.
Proof. unfold Rleb; destruct (Rle_dec a b); split; intros; auto; try discriminate; lra. Qed.
Lemma Reqb_true a b : Reqb a b = true <-> a = b.
Proof. unfold Reqb; destruct (Req_EM_T a b); split; intros; auto; discriminate. Qed.
Lemma Reqb_false a b : Reqb a b = false <-> a <> b.
Proof. unfold Reqb; destruct (Req_EM_T a b); split; intros; auto; try discriminate; tauto. Qed.

Lemma Ele_Fin a b : Ele (Fin a) (Fin b) <-> a <= b.
Proof. apply Rleb_true. Qed.
Lemma Elt_Fin a b : Elt (Fin a) (Fin b) <-> a < b.
Proof. apply Rltb_true. Qed.

(** Expose the [ER] operations and the branch structure, nothing more. *)
Ltac un_cls :=
  cbv beta iota zeta delta
    [ add sub mul div neg abs ltb leb eqb ofZ lit nan pinf epsilon tmin is_nan is_posinf
      is_neginf exp log expm1 log1p sqrt pow powZ atan tan tanh erf erf_inv lgamma incgamma
      incgamma_inv incbeta incbeta_inv log_binom factorial PI LOG_2PI LOG_2 LOG_PI SQRT_2
      SQRT_HALF_PI ER_Num elit Qnum Qden
      is_inf any_nan2 any_inf2 any_inf3 any_posinf2 any_posinf3 all_posinf2 all_neginf2
      all_inf2 is_finite all_finite2 log_if log_zero_if log_one_if exp_if sgn tmax
      eisnan eisposinf eisneginf negb orb andb
      prob_val_check bern_sanity radem_sanity binom_sanity pois_sanity
      beta_sanity2 beta_sanity3 cauchy_sanity2 cauchy_sanity3 chisq_sanity1 chisq_sanity2
      exp_sanity1 exp_sanity2 f_sanity2 f_sanity3 gamma_sanity2 gamma_sanity3
      invgamma_sanity2 invgamma_sanity3 invgauss_sanity2 invgauss_sanity3
      laplace_sanity2 laplace_sanity3 lnorm_sanity2 lnorm_sanity3 logis_sanity2 logis_sanity3
      norm_sanity2 norm_sanity3 t_sanity1 t_sanity2 unif_sanity2 unif_sanity3
      weibull_sanity2 weibull_sanity3 option_map ].

Lemma eadd_F a b : eadd (Fin a) (Fin b) = Fin (a + b). Proof. reflexivity. Qed.
Lemma esub_F a b : esub (Fin a) (Fin b) = Fin (a - b). Proof. reflexivity. Qed.
Lemma emul_F a b : emul (Fin a) (Fin b) = Fin (a * b). Proof. reflexivity. Qed.
Lemma eneg_F a : eneg (Fin a) = Fin (- a). Proof. reflexivity. Qed.
Lemma eneg_P : eneg PInf = MInf. Proof. reflexivity. Qed.
Lemma eneg_M : eneg MInf = PInf. Proof. reflexivity. Qed.
Lemma eneg_N : eneg NaN = NaN. Proof. reflexivity. Qed.
Lemma eabs_F a : eabs (Fin a) = Fin (Rabs a). Proof. reflexivity. Qed.
Lemma eexp_F a : eexp (Fin a) = Fin (Rtrigo_def.exp a). Proof. reflexivity. Qed.
Lemma eexpm1_F a : eexpm1 (Fin a) = Fin (Rtrigo_def.exp a - 1). Proof. reflexivity. Qed.
Lemma eatan_F a : eatan (Fin a) = Fin (Ratan.atan a). Proof. reflexivity. Qed.
Lemma etan_F a : etan (Fin a) = Fin (Rtrigo1.tan a). Proof. reflexivity. Qed.
Lemma etanh_F a : etanh (Fin a) = Fin (Rtrigo_def.tanh a). Proof. reflexivity. Qed.
Lemma eltb_F a b : eltb (Fin a) (Fin b) = Rltb a b. Proof. reflexivity. Qed.
Lemma eleb_F a b : eleb (Fin a) (Fin b) = Rleb a b. Proof. reflexivity. Qed.
Lemma eeqb_F a b : eeqb (Fin a) (Fin b) = Reqb a b. Proof. reflexivity. Qed.
Lemma epowZ_F S a n : epowZ S (Fin a) n = Fin (a ^ Z.to_nat n). Proof. reflexivity. Qed.

Lemma ediv_F a b : b <> 0 -> ediv (Fin a) (Fin b) = Fin (a / b).
Proof. intros; cbv beta iota delta [ediv elog esqrt epow emul scale_inf eneg]; destruct Req_EM_T; auto; contradiction. Qed.
Lemma elog_F a : 0 < a -> elog (Fin a) = Fin (ln a).
Proof. intros; cbv beta iota delta [ediv elog esqrt epow emul scale_inf eneg]; destruct Rlt_dec; [lra|destruct Req_EM_T; auto; lra]. Qed.
Lemma elog_0 : elog (Fin 0) = MInf.
Proof. cbv beta iota delta [ediv elog esqrt epow emul scale_inf eneg]; destruct Rlt_dec; [lra|destruct Req_EM_T; auto; lra]. Qed.
Lemma elog_neg a : a < 0 -> elog (Fin a) = NaN.
Proof. intros; cbv beta iota delta [ediv elog esqrt epow emul scale_inf eneg]; destruct Rlt_dec; auto; lra. Qed.
Lemma elog_1 : elog (Fin 1) = Fin 0.
Proof. rewrite elog_F by lra. now rewrite ln_1. Qed.
Lemma elog1p_F a : 0 < 1 + a -> elog1p (Fin a) = Fin (ln (1 + a)).
Proof. intros; unfold elog1p; rewrite eadd_F; now apply elog_F. Qed.
Lemma esqrt_F a : 0 <= a -> esqrt (Fin a) = Fin (R_sqrt.sqrt a).
Proof. intros; cbv beta iota delta [ediv elog esqrt epow emul scale_inf eneg]; destruct Rlt_dec; auto; lra. Qed.
Lemma epow_F S a b : 0 < a -> epow S (Fin a) (Fin b) = Fin (Rpower a b).
Proof. intros; cbv beta iota delta [ediv elog esqrt epow emul scale_inf eneg]; destruct Rlt_dec; auto; lra. Qed.
Lemma epow_0 S b : 0 < b -> epow S (Fin 0) (Fin b) = Fin 0.
Proof.
  intros; cbv beta iota delta [ediv elog esqrt epow emul scale_inf eneg]; destruct Rlt_dec; [lra|]. destruct Req_EM_T; [|lra].
  destruct Rlt_dec; auto; lra.
Qed.
Lemma emul_0_P : emul (Fin 0) PInf = NaN.
Proof. cbv beta iota delta [ediv elog esqrt epow emul scale_inf eneg]; destruct Rlt_dec; [lra|auto]. Qed.
Lemma emul_0_M : emul (Fin 0) MInf = NaN.
Proof. cbv beta iota delta [ediv elog esqrt epow emul scale_inf eneg]; destruct Rlt_dec; [lra|auto]. Qed.
Lemma emul_pos_P a : 0 < a -> emul (Fin a) PInf = PInf.
Proof. intros; cbv beta iota delta [ediv elog esqrt epow emul scale_inf eneg]; destruct Rlt_dec; auto; lra. Qed.
Lemma emul_pos_M a : 0 < a -> emul (Fin a) MInf = MInf.
Proof. intros; cbv beta iota delta [ediv elog esqrt epow emul scale_inf eneg]; destruct Rlt_dec; auto; lra. Qed.
Lemma emul_neg_P a : a < 0 -> emul (Fin a) PInf = MInf.
Proof. intros; cbv beta iota delta [ediv elog esqrt epow emul scale_inf eneg]; destruct Rlt_dec; [lra|]; destruct Rlt_dec; auto; lra. Qed.
Lemma emul_neg_M a : a < 0 -> emul (Fin a) MInf = PInf.
Proof. intros; cbv beta iota delta [ediv elog esqrt epow emul scale_inf eneg]; destruct Rlt_dec; [lra|]; destruct Rlt_dec; auto; lra. Qed.
Lemma ediv_pos_0 a : 0 < a -> ediv (Fin a) (Fin 0) = PInf.
Proof. intros; cbv beta iota delta [ediv elog esqrt epow emul scale_inf eneg]; destruct Req_EM_T; [|lra]; destruct Rlt_dec; auto; lra. Qed.
Lemma ediv_neg_0 a : a < 0 -> ediv (Fin a) (Fin 0) = MInf.
Proof.
  intros; cbv beta iota delta [ediv elog esqrt epow emul scale_inf eneg]; destruct Req_EM_T; [|lra]; destruct Rlt_dec; [lra|];
  destruct Rlt_dec; auto; lra.
Qed.
Lemma ediv_0_0 : ediv (Fin 0) (Fin 0) = NaN.
Proof.
  cbv beta iota delta [ediv elog esqrt epow emul scale_inf eneg]; destruct Req_EM_T; [|lra]; destruct Rlt_dec; [lra|auto].
Qed.

Lemma elog_eexp v : elog (eexp v) = v.
Proof.
  destruct v; auto.
  - apply elog_0.
  - cbn [eexp]. rewrite elog_F by apply exp_pos. now rewrite ln_exp.
Qed.
Lemma eexp_elog a : 0 <= a -> eexp (elog (Fin a)) = Fin a.
Proof.
  intros [H|<-].
  - rewrite elog_F by auto. cbn. now rewrite exp_ln.
  - now rewrite elog_0.
Qed.

(** Side conditions of the partial rewrites. *)
Ltac side := first [ assumption | lra | apply exp_pos | apply Rgt_not_eq; lra
                   | apply Rlt_not_eq; lra | apply PI_neq0 | nra ].

(** Arithmetic on finite values. *)
Ltac er_arith :=
  repeat first
    [ rewrite eadd_F | rewrite esub_F | rewrite emul_F | rewrite eneg_F | rewrite eneg_P
    | rewrite eneg_M | rewrite eneg_N
    | rewrite eabs_F | rewrite eexp_F | rewrite eexpm1_F | rewrite eatan_F | rewrite etan_F
    | rewrite etanh_F | rewrite eltb_F | rewrite eleb_F | rewrite eeqb_F | rewrite epowZ_F
    | rewrite ediv_F by side | rewrite elog_F by side | rewrite elog_0
    | rewrite elog1p_F by side
    | rewrite esqrt_F by side | rewrite epow_F by side ].

(** Decide the comparisons of the goal: rewrite when the context settles them,
    otherwise split. *)
Ltac rdec_known :=
  match goal with
  | |- context [Rltb ?a ?b] =>
    first [ rewrite (proj2 (Rltb_true a b)) by lra | rewrite (proj2 (Rltb_false a b)) by lra ]
  | |- context [Rleb ?a ?b] =>
    first [ rewrite (proj2 (Rleb_true a b)) by lra | rewrite (proj2 (Rleb_false a b)) by lra ]
  | |- context [Reqb ?a ?b] =>
    first [ rewrite (proj2 (Reqb_true a b)) by lra | rewrite (proj2 (Reqb_false a b)) by lra ]
  end.
Ltac rdec_split :=
  match goal with
  | |- context [Rltb ?a ?b] =>
    let H := fresh "C" in destruct (Rltb a b) eqn:H;
    [ apply Rltb_true in H | apply Rltb_false in H ]
  | |- context [Rleb ?a ?b] =>
    let H := fresh "C" in destruct (Rleb a b) eqn:H;
    [ apply Rleb_true in H | apply Rleb_false in H ]
  | |- context [Reqb ?a ?b] =>
    let H := fresh "C" in destruct (Reqb a b) eqn:H;
    [ apply Reqb_true in H | apply Reqb_false in H ]
  end.
Ltac er_cmp := cbv beta iota delta [eltb eleb eeqb].
Ltac er_iota := cbv beta iota delta [negb orb andb].
Ltac rdec := repeat (first [rdec_known | rdec_split]; er_iota; try (exfalso; lra)).
Ltac rdecide := repeat (rdec_known; er_iota).
