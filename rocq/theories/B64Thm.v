(** The binary64 theorems on distribution and quantile functions, in the words of SpecB64.v. *)
From Coq Require Import ZArith QArith Reals Bool Lra Lia.
From Verif Require Import Num Sanity Prob Dens Quant B64 B64R B64Ord SpecB64 B64Cdf B64Cdf2 B64Cdf3 B64CR B64CR2 B64CdfBad B64Unif B64Quant B64Quant2 B64QuantBad.
From Flocq Require Import Core IEEE754.BinarySingleNaN.
Local Open Scope Z_scope.
Local Open Scope b64_scope.

Lemma fin_bfin x : b64_fin x -> bfin x.
Proof. intros [A B]. destruct x as [s|s| |s m e H]; try reflexivity; [destruct s|]; try discriminate A; discriminate B. Qed.
Lemma half_fin x : bofZ 0 ≤ x -> x ≺ plus_inf -> bfin x /\ (0 <= B2R x)%R.
Proof.
  intros A B. apply (le_Zl 0 x ltac:(sm)) in A. destruct A as [N A]. apply ltb_ev in B; auto; try reflexivity. unfold plus_inf in B. rewrite ev_p in B. pose proof maxR_pos.
  assert (Fx : bfin x) by (apply ev_lt_fin; auto; lra). split; auto. now rewrite <- ev_fin.
Qed.
Lemma eqb0_R x : b64_fin x -> Beqb x (bofZ 0) = true -> B2R x = 0%R.
Proof. intros H E. apply fin_bfin in H. destruct z0 as [Z0 E0]. apply (eqb_ev x (bofZ 0) (nn_fin _ H) Z0) in E. now rewrite E0, ev_fin in E by auto. Qed.
Lemma lt_R x y : b64_fin x -> b64_fin y -> x ≺ y -> (B2R x < B2R y)%R.
Proof. intros H K L. apply fin_bfin in H, K. apply (ltb_ev x y (nn_fin _ H) (nn_fin _ K)) in L. now rewrite !ev_fin in L by auto. Qed.
Lemma chisq_side dof : b64_fin dof -> b64_pos (bdiv dof (bofZ 2)) \/ Beqb dof (bofZ 0) = true -> (0 <= B2R dof)%R /\ (b64_pos (bdiv dof (bofZ 2)) \/ B2R dof = 0%R).
Proof.
  intros H [K|K]; [|rewrite (eqb0_R dof H K); split; [lra|auto]]. split; [|auto]. apply fin_bfin in H. destruct (bofZ_R 2 ltac:(sm)) as [A2 F2].
  destruct (Rle_lt_dec 0 (B2R dof)) as [|L]; auto. exfalso. destruct (pos_bpos _ K) as [Fk Pk]. rewrite <- ev_fin in Pk by auto.
  rewrite (proj2 (div_ff dof (bofZ 2) H F2 ltac:(lra))), A2 in Pk. pose proof (rc_mono (B2R dof / 2) 0 ltac:(lra)) as Q. rewrite rc_0 in Q. lra.
Qed.
Ltac side := auto; first [now apply fin_bfin | now apply pos_bpos | apply half_fin; assumption | now apply lt_R | apply chisq_side; assumption].
Ltac ex_tf := match goal with
  | |- sym_fun (t_erf _) => exact TFR_erf | |- sym_fun (t_tanh _) => exact TFR_tanh
  | |- b64_pos (t_SQRT_2 _) => exact TFR_SQRT_2 | |- b64_pos (t_PI _) => exact (proj1 TFR_PI) | |- b64_pos (bmul (t_SQRT_2 _) _) => exact TFR_SQRT_2_1
  | |- atan_ok _ => exact TFR_atan | |- log_ok _ => exact TFR_log | |- exp_ok _ => exact TFR_exp | |- expm1_ok _ => exact TFR_expm1 | |- pow_ok _ => exact TFR_pow
  | |- incgamma_ok _ => exact TFR_incgamma | |- incbeta_ok _ => exact TFR_incbeta | |- erf_inv_ok _ => exact TFR_erf_inv | |- tan_ok _ => exact TFR_tan
  | |- log01_ok _ => exact TFR_log01 | |- log1p_ok _ => exact TFR_log1p | |- exp_all_ok _ => exact TFR_exp_all | |- incgamma_inv_ok _ => exact TFR_incgamma_inv
  | |- incgamma_inv_pz _ => exact TFR_incgamma_inv_pz | |- incbeta_inv_ok _ => exact TFR_incbeta_inv
  | |- _ \/ _ => left; split; vm_compute; reflexivity
  | |- Bleb _ _ = _ => vm_compute; reflexivity | |- Bltb _ _ = _ => vm_compute; reflexivity
  | |- _ => split; vm_compute; reflexivity end.
Lemma no_dip (a b : b64) : a ≤ b -> b ≺ a -> False.
Proof. intros A B. apply leb_ev in A. destruct A as (Na & Nb & L). apply (ltb_ev b a Nb Na) in B. lra. Qed.
Lemma no_nan (v : b64) : v = B754_nan -> bofZ 0 ≤ v -> False. Proof. intros -> H. discriminate H. Qed.
Lemma no_nan_r (u v : b64) : v = B754_nan -> u ≤ v -> False. Proof. intros -> H. destruct u as [s|s| |s m e B]; try destruct s; discriminate H. Qed.
(** a small record of functions with the values that some refutations ask for *)
Definition TFX : TF := {|
  t_exp := fun x => if Beqb x (bofZ 800) then plus_inf else po_e; t_log := fun x => bofZ 0;
  t_expm1 := fun x => x; t_log1p := fun x => x; t_pow := fun x _ => x; t_powZ := fun x k => if (k =? 1) then x else bmul x x;
  t_atan := fun x => x; t_tan := fun x => x; t_tanh := fun x => x; t_erf := fun z => if Bleb z (bofZ (-20)) then bofZ (-1) else bofZ 0;
  t_erf_inv := fun x => if Beqb x (bofZ (-1)) then minus_inf else bofZ 0; t_lgamma := fun x => x;
  t_incgamma := fun _ x => x; t_incgamma_inv := fun _ x => x; t_incbeta := fun _ _ x => x; t_incbeta_inv := fun _ _ x => x;
  t_log_binom := fun n _ => bofZ n; t_factorial := fun n => bofZ n;
  t_PI := bofZ 3; t_LOG_2PI := bofZ 2; t_LOG_2 := bofZ 1; t_LOG_PI := bofZ 1; t_SQRT_2 := sqrt2d; t_SQRT_HALF_PI := bofZ 1 |}.

Lemma t_pnorm : forall (F : TF) (mu sigma : b64), sym_fun (t_erf F) -> b64_pos (t_SQRT_2 F) -> b64_fin mu -> b64_pos sigma -> b64_cdf (fun x => pnorm (N:=B64_Num F) x mu sigma false).
Proof. intros. apply inc01_cdf. apply (pnorm_inc F mu sigma); side. Qed.

Lemma t_plnorm : forall (F : TF) (mu sigma : b64), sym_fun (t_erf F) -> b64_pos (t_SQRT_2 F) -> log_ok F -> b64_fin mu -> b64_pos sigma -> b64_cdf (fun x => plnorm (N:=B64_Num F) x mu sigma false).
Proof. intros. apply inc01_cdf. apply (plnorm_inc F mu sigma); side. Qed.

Lemma t_pcauchy : forall (F : TF) (mu sigma : b64), atan_ok F -> b64_pos (t_PI F) -> b64_fin mu -> b64_pos sigma -> b64_cdf (fun x => pcauchy (N:=B64_Num F) x mu sigma false).
Proof. intros. apply inc01_cdf. apply (pcauchy_inc F mu sigma); side. Qed.

Lemma t_plaplace : forall (F : TF) (mu sigma : b64), exp_ok F -> b64_fin mu -> b64_pos sigma -> b64_cdf (fun x => plaplace (N:=B64_Num F) x mu sigma false).
Proof. intros. apply inc01_cdf. apply (plaplace_inc F mu sigma); side. Qed.

Lemma t_plogis : forall (F : TF) (mu sigma : b64), sym_fun (t_tanh F) -> b64_fin mu -> b64_pos sigma -> b64_fin (bmul (bofZ 2) sigma) -> b64_cdf (fun x => plogis (N:=B64_Num F) x mu sigma false).
Proof. intros. apply inc01_cdf. apply (plogis_inc F mu sigma); side. Qed.

Lemma t_pt_1 : forall (F : TF), atan_ok F -> b64_pos (t_PI F) -> b64_cdf (fun x => pt (N:=B64_Num F) x (bofZ 1) false).
Proof. intros. apply inc01_cdf. apply (pt1_inc F); side. Qed.

Lemma t_pt_inf : forall (F : TF), sym_fun (t_erf F) -> b64_pos (t_SQRT_2 F) -> b64_cdf (fun x => pt (N:=B64_Num F) x plus_inf false).
Proof. intros. apply inc01_cdf. apply (ptinf_inc F); side. Qed.

Lemma t_pexp : forall (F : TF) (rate : b64), expm1_ok F -> b64_pos rate -> b64_cdf (fun x => pexp (N:=B64_Num F) x rate false).
Proof. intros. apply inc01_cdf. apply (pexp_inc F rate); side. Qed.

Lemma t_pweibull : forall (F : TF) (shape scale : b64), expm1_ok F -> pow_ok F -> big_eps shape -> big_eps scale -> b64_cdf (fun x => pweibull (N:=B64_Num F) x shape scale false).
Proof. intros. apply inc01_cdf. apply (pweibull_inc F shape scale); side. Qed.

Lemma t_pgamma : forall (F : TF) (shape scale : b64), incgamma_ok F -> bofZ 0 ≤ shape -> shape ≺ plus_inf -> big_eps scale -> b64_cdf (fun x => pgamma (N:=B64_Num F) x shape scale false).
Proof. intros. apply inc01_cdf. apply (pgamma_inc F shape scale); side. Qed.

Lemma t_pchisq : forall (F : TF) (dof : b64), incgamma_ok F -> b64_fin dof -> b64_pos (bdiv dof (bofZ 2)) \/ Beqb dof (bofZ 0) = true -> b64_cdf (fun x => pchisq (N:=B64_Num F) x dof false).
Proof. intros. apply inc01_cdf. apply (pchisq_inc F dof); side. Qed.

Lemma t_pinvgamma : forall (F : TF) (shape rate : b64), incgamma_ok F -> bofZ 0 ≤ shape -> shape ≺ plus_inf -> b64_pos rate -> big_eps (bdiv (bofZ 1) rate) -> b64_cdf (fun x => pinvgamma (N:=B64_Num F) x shape rate false).
Proof. intros. apply inc01_cdf. apply (pinvgamma_inc F shape rate); side. Qed.

Lemma t_pbeta : forall (F : TF) (a b : b64), incbeta_ok F -> b64_pos a -> b64_pos b -> b64_cdf (fun x => pbeta (N:=B64_Num F) x a b false).
Proof. intros. apply inc01_cdf. apply (pbeta_inc F a b); side. Qed.

Lemma t_punif : forall (F : TF) (a b : b64), b64_fin a -> b64_fin b -> a ≺ b -> b64_fin (bsub b a) -> b64_cdf (fun x => punif (N:=B64_Num F) x a b false).
Proof. intros. apply inc01_cdf. apply (punif_inc F a b); side. Qed.

Lemma t_pbern : forall (F : TF) (prob : b64), bofZ 0 ≤ prob -> prob ≤ bofZ 1 -> b64_cdfZ (fun x => pbern (N:=B64_Num F) x prob false).
Proof. intros. apply (pbern_cdfZ F prob); auto. Qed.

Lemma t_pradem : forall (F : TF) (prob : b64), bofZ 0 ≤ prob -> prob ≤ bofZ 1 -> b64_cdfZ (fun x => pradem (N:=B64_Num F) x prob false).
Proof. intros. apply (pradem_cdfZ F prob); auto. Qed.

Lemma tfr_all : sym_fun (t_erf TFR) /\ sym_fun (t_tanh TFR) /\ b64_pos (t_SQRT_2 TFR) /\ b64_pos (t_PI TFR) /\ atan_ok TFR /\
  log_ok TFR /\ exp_ok TFR /\ expm1_ok TFR /\ pow_ok TFR /\ incgamma_ok TFR /\ incbeta_ok TFR.
Proof. exact (conj TFR_erf (conj TFR_tanh (conj TFR_SQRT_2 (conj (proj1 TFR_PI) (conj TFR_atan (conj TFR_log (conj TFR_exp (conj TFR_expm1 (conj TFR_pow (conj TFR_incgamma TFR_incbeta)))))))))). Qed.

Lemma t_pt_2_refuted : forall F : TF, ~ b64_cdf (fun x => pt (N:=B64_Num F) x (bofZ 2) false).
Proof. intros F [_ H]. destruct (pt2_not_mono F) as [A B]. apply (no_dip _ _ (H _ _ A) B). Qed.

Lemma t_pt_2_dip_refuted : forall F : TF, exists x y, b64_pos x /\ x ≺ y /\ y ≺ bofZ 500 /\ pt (N:=B64_Num F) y (bofZ 2) false ≺ pt (N:=B64_Num F) x (bofZ 2) false.
Proof. intros F. exists t2_a, t2_b. destruct (pt2_dip F) as [A B]. split; [split; vm_compute; reflexivity|]. split; [exact A|]. split; [vm_compute; reflexivity|exact B]. Qed.

Lemma t_plogis_refuted : forall F : TF, t_tanh F B754_nan = B754_nan -> exists mu sigma, b64_fin mu /\ b64_pos sigma /\ ~ b64_cdf (fun x => plogis (N:=B64_Num F) x mu sigma false).
Proof. intros F H. destruct (plogis_nan F H) as (_ & _ & P & E). exists (Bopp (bz 1 1023)), (bz 1 1023). split; [split; vm_compute; reflexivity|]. split; [exact P|].
  intros [K _]. apply (no_nan _ E (proj1 (K (bz 1 1023) ltac:(discriminate)))). Qed.

Lemma t_pf_refuted : forall F : TF, (forall a b, t_incbeta F a b B754_nan = B754_nan) -> exists df1 df2, b64_pos df1 /\ b64_pos df2 /\ ~ b64_cdf (fun x => pf (N:=B64_Num F) x df1 df2 false).
Proof. intros F H. destruct (pf_nan F H) as (_ & P & P' & E). exists (bz 1 100), (bofZ 1). split; [exact P|]. split; [exact P'|].
  intros [K _]. apply (no_nan _ E (proj1 (K (bz 1 1000) ltac:(discriminate)))). Qed.

Lemma t_pf_dip_refuted : forall F : TF, (forall x, t_incbeta F (bofZ 1) (bofZ 1) x = x) -> ~ b64_cdf (fun x => pf (N:=B64_Num F) x (bofZ 2) (bofZ 2) false).
Proof. intros F H [_ K]. destruct (pf_dip F H) as [A B]. apply (no_dip _ _ (K f_a f_b ltac:(vm_compute; reflexivity)) B). Qed.

Lemma t_pinvgauss_refuted : forall F : TF, t_SQRT_2 F = sqrt2d -> t_exp F (bofZ 800) = plus_inf -> (forall z, z ≤ bofZ (-20) -> t_erf F z = bofZ (-1)) -> t_erf F (bofZ 0) = bofZ 0 ->
  ~ b64_cdf (fun x => pinvgauss (N:=B64_Num F) x (bofZ 1) (bofZ 400) false).
Proof. intros F H1 H2 H3 H4 [K _]. apply (no_nan _ (pinvgauss_nan F H1 H2 H3 H4) (proj1 (K (bofZ 1) ltac:(discriminate)))). Qed.

Lemma t_ppois_refuted : forall F : TF, t_exp F (Bopp po_r) = po_e -> t_powZ F po_r 1 = po_r -> t_powZ F po_r 2 = bmul po_r po_r ->
  t_factorial F 1 = bofZ 1 -> t_factorial F 2 = bofZ 2 -> ~ b64_cdfZ (fun x => ppois (N:=B64_Num F) x po_r false).
Proof. intros F H1 H2 H3 H4 H5 [K _]. destruct (ppois_gt1 F H1 H2 H3 H4 H5) as [_ B]. apply (no_dip _ _ (proj2 (K 2%Z)) B). Qed.

Lemma t_qnorm : forall (F : TF) (mu sigma : b64), erf_inv_ok F -> b64_fin mu -> b64_pos sigma -> b64_pos (bmul (t_SQRT_2 F) sigma) -> b64_quantile (fun x => qnorm (N:=B64_Num F) x mu sigma).
Proof. intros. apply qinc_spec. apply (qnorm_qinc F mu sigma); side. Qed.

Lemma t_qlnorm : forall (F : TF) (mu sigma : b64), exp_all_ok F -> erf_inv_ok F -> b64_fin mu -> b64_pos sigma -> b64_pos (bmul (t_SQRT_2 F) sigma) -> b64_quantile (fun x => qlnorm (N:=B64_Num F) x mu sigma).
Proof. intros. apply qinc_spec. apply (qlnorm_qinc F mu sigma); side. Qed.

Lemma t_qcauchy : forall (F : TF) (mu sigma : b64), tan_ok F -> b64_pos (t_PI F) -> b64_fin mu -> b64_pos sigma -> b64_quantile (fun x => qcauchy (N:=B64_Num F) x mu sigma).
Proof. intros. apply qinc_spec. apply (qcauchy_qinc F mu sigma); side. Qed.

Lemma t_qlaplace : forall (F : TF) (mu sigma : b64), log01_ok F -> b64_fin mu -> b64_pos sigma -> b64_quantile (fun x => qlaplace (N:=B64_Num F) x mu sigma).
Proof. intros. apply qinc_spec. apply (qlaplace_qinc F mu sigma); side. Qed.

Lemma t_qlogis : forall (F : TF) (mu sigma : b64), log_ok F -> b64_fin mu -> b64_pos sigma -> b64_quantile (fun x => qlogis (N:=B64_Num F) x mu sigma).
Proof. intros. apply qinc_spec. apply (qlogis_qinc F mu sigma); side. Qed.

Lemma t_qt_1 : forall (F : TF), tan_ok F -> b64_pos (t_PI F) -> b64_quantile (fun x => qt (N:=B64_Num F) x (bofZ 1)).
Proof. intros. apply qinc_spec. apply (qt1_qinc F); side. Qed.

Lemma t_qt_inf : forall (F : TF), erf_inv_ok F -> b64_pos (bmul (t_SQRT_2 F) (bofZ 1)) -> b64_quantile (fun x => qt (N:=B64_Num F) x plus_inf).
Proof. intros. apply qinc_spec. apply (qtinf_qinc F); side. Qed.

Lemma t_qexp : forall (F : TF) (rate : b64), log01_ok F -> b64_pos rate -> b64_quantile (fun x => qexp (N:=B64_Num F) x rate).
Proof. intros. apply qinc_spec. apply (qexp_qinc F rate); side. Qed.

Lemma t_qweibull : forall (F : TF) (shape scale : b64), log1p_ok F -> pow_ok F -> big_eps shape -> big_eps scale -> b64_quantile (fun x => qweibull (N:=B64_Num F) x shape scale).
Proof. intros. apply qinc_spec. apply (qweibull_qinc F shape scale); side. Qed.

Lemma t_qgamma : forall (F : TF) (shape scale : b64), incgamma_inv_ok F -> b64_pos shape -> big_eps scale -> b64_quantile (fun x => qgamma (N:=B64_Num F) x shape scale).
Proof. intros. apply qinc_spec. apply (qgamma_qinc F shape scale); side. Qed.

Lemma t_qchisq : forall (F : TF) (dof : b64), incgamma_inv_ok F -> b64_pos dof -> b64_pos (bdiv dof (bofZ 2)) -> b64_quantile (fun x => qchisq (N:=B64_Num F) x dof).
Proof. intros. apply qinc_spec. apply (qchisq_qinc F dof); side. Qed.

Lemma t_qinvgamma : forall (F : TF) (shape rate : b64), incgamma_inv_ok F -> incgamma_inv_pz F -> b64_pos shape -> b64_pos rate -> b64_quantile (fun x => qinvgamma (N:=B64_Num F) x shape rate).
Proof. intros. apply qinc_spec. apply (qinvgamma_qinc F shape rate); side. Qed.

Lemma t_qbeta : forall (F : TF) (a b : b64), incbeta_inv_ok F -> b64_pos a -> b64_pos b -> b64_quantile (fun x => qbeta (N:=B64_Num F) x a b).
Proof. intros. apply qinc_spec. apply (qbeta_qinc F a b); side. Qed.

Lemma t_qf : forall (F : TF) (df1 df2 : b64), incbeta_inv_ok F -> big_eps df1 -> big_eps df2 -> b64_pos (bdiv (bdiv df1 (bofZ 2)) (bdiv df2 (bofZ 2))) -> b64_quantile (fun x => qf (N:=B64_Num F) x df1 df2).
Proof. intros. apply qinc_spec. apply (qf_qinc F df1 df2); side. Qed.

Lemma t_qunif : forall (F : TF) (a b : b64), b64_fin a -> b64_fin b -> a ≺ b -> b64_fin (bsub b a) -> b64_quantile (fun x => qunif (N:=B64_Num F) x a b).
Proof. intros. apply qinc_spec. apply (qunif_qinc F a b); side. Qed.

Lemma t_qbern : forall (F : TF) (prob : b64), bofZ 0 ≤ prob -> prob ≤ bofZ 1 -> b64_quantile (fun x => qbern (N:=B64_Num F) x prob).
Proof. intros. apply qinc_spec. apply (qbern_qinc F prob); side. Qed.

Lemma t_qradem : forall (F : TF) (prob : b64), bofZ 0 ≤ prob -> prob ≤ bofZ 1 -> b64_quantile (fun x => qradem (N:=B64_Num F) x prob).
Proof. intros. apply qinc_spec. apply (qradem_qinc F prob); side. Qed.

Lemma t_qbinom : forall (F : TF) (n : Z) (prob : b64), 0 <= n <= 2 ^ 53 -> bofZ 0 ≤ prob -> prob ≤ bofZ 1 -> b64_quantile (fun x => qbinom (N:=B64_Num F) x n prob).
Proof. intros. apply qinc_spec. apply (qbinom_qinc F n prob); auto. Qed.

Lemma tfr_all_q : erf_inv_ok TFR /\ tan_ok TFR /\ log01_ok TFR /\ log1p_ok TFR /\ exp_all_ok TFR /\ incgamma_inv_ok TFR /\ incgamma_inv_pz TFR /\ incbeta_inv_ok TFR.
Proof. exact (conj TFR_erf_inv (conj TFR_tan (conj TFR_log01 (conj TFR_log1p (conj TFR_exp_all (conj TFR_incgamma_inv (conj TFR_incgamma_inv_pz TFR_incbeta_inv))))))). Qed.

Lemma t_qt_2_refuted : forall F : TF, ~ b64_quantile (fun x => qt (N:=B64_Num F) x (bofZ 2)).
Proof. intros F K. destruct (qt2_dip F) as (A & B & C & D). apply (no_dip _ _ (K qt_a qt_b A ltac:(vm_compute; reflexivity) C) D). Qed.

Lemma t_qnorm_refuted : forall F : TF, t_SQRT_2 F = sqrt2d -> t_erf_inv F (bofZ 0) = bofZ 0 -> exists sigma, b64_pos sigma /\ ~ b64_quantile (fun x => qnorm (N:=B64_Num F) x (bofZ 0) sigma).
Proof. intros F H1 H2. destruct (qnorm_nan F H1 H2) as [P E]. exists (bz 3 1022). split; [exact P|]. intros K.
  pose proof (K (bofZ 0) (blit (1#2)) ltac:(vm_compute; reflexivity) ltac:(vm_compute; reflexivity) ltac:(vm_compute; reflexivity)) as Q. apply (no_nan_r _ _ E Q). Qed.

Lemma t_qexp_lost : forall F : TF, t_log F (bofZ 1) = bofZ 0 -> exists p, bofZ 0 ≺ p /\ Beqb (qexp (N:=B64_Num F) p (bofZ 1)) (qexp (N:=B64_Num F) (bofZ 0) (bofZ 1)) = true.
Proof. intros F H. destruct (qexp_zero F H) as [A B]. exists (bz 1 (-60)). split; [exact A|]. change (qexp (N:=B64_Num F) (bofZ 0) (bofZ 1)) with (bofZ 0). exact B. Qed.

Lemma t_qnorm_lost : forall F : TF, t_SQRT_2 F = sqrt2d -> t_erf_inv F (bofZ (-1)) = minus_inf -> exists p, bofZ 0 ≺ p /\ qnorm (N:=B64_Num F) p (bofZ 0) (bofZ 1) = minus_inf.
Proof. intros F H1 H2. destruct (qnorm_minf F H1 H2) as [A B]. exists (bz 1 (-60)). split; [exact A|exact B]. Qed.
