(** The binary64 theorems on densities, in the words of SpecB64D.v. *)
From Coq Require Import ZArith QArith Reals Bool Lra Lia.
From Verif Require Import Num Sanity Prob Dens B64 B64R B64Ord SpecB64 B64Cdf B64CR B64CR2 B64CdfBad B64Thm SpecB64D B64Mag B64Dens B64Dens2 B64Dens3 B64Dens4 B64Dens5 B64CR3 B64DensBad.
From Flocq Require Import Core IEEE754.BinarySingleNaN.
Local Open Scope Z_scope.
Local Open Scope b64_scope.

Lemma bfin_fin x : bfin x -> b64_fin x.
Proof. intros H. destruct x as [s|s| |s m e B]; try discriminate H; destruct s; split; reflexivity. Qed.
Lemma okd_on (P : b64 -> Prop) (d : bool -> b64 -> b64) : (forall lf x, nn x -> P x -> okd lf (d lf x)) -> b64_densities_on P d.
Proof.
  intros H x N Px. apply nn_neq in N. split.
  - destruct (H false x N Px) as [A B]. apply (le_Zl 0); [sm|]. auto.
  - apply nn_neq. now apply (H true x N Px).
Qed.
Lemma okd_mass (d : bool -> b64) : (forall lf, okd lf (d lf)) -> bofZ 0 ≤ d false /\ d true <> B754_nan.
Proof. intros H. split; [destruct (H false) as [A B]; apply (le_Zl 0); [sm|]; auto|apply nn_neq, (H true)]. Qed.
Lemma one_le c : b64_fin c -> bofZ 1 ≤ c -> (1 <= B2R c)%R.
Proof. intros Hf H. apply (le_Zl 1) in H; [|sm]. rewrite <- ev_fin by now apply fin_bfin. apply H. Qed.
Ltac side2 := auto; first [now apply fin_bfin | now apply pos_bpos | now apply lt_R | now apply one_le | idtac].
Ltac ex_tf2 := match goal with
  | |- log_std _ => exact TFR_log_std | |- exp_all_ok _ => exact TFR_exp_all | |- lgamma_mid _ => exact TFR_lgamma_mid | |- lgamma_ge _ => exact TFR_lgamma_ge
  | |- log_binom_ok _ => exact TFR_log_binom | |- pow_ok _ => exact TFR_pow
  | |- small_const (t_LOG_2PI _) => exact TFR_LOG_2PI | |- small_const (t_LOG_PI _) => exact TFR_LOG_PI | |- small_const (t_LOG_2 _) => exact TFR_LOG_2
  | |- b64_fin (t_PI _) => exact (proj1 TFR_PI_1) | |- Bleb _ (t_PI _) = _ => exact (proj2 TFR_PI_1)
  | |- _ \/ _ => left; vm_compute; reflexivity | |- (_ < _)%Z => reflexivity | |- (_ <= _ <= _)%Z => split; discriminate
  | |- Bleb _ _ = _ => vm_compute; reflexivity | |- Bltb _ _ = _ => vm_compute; reflexivity
  | |- _ => split; vm_compute; reflexivity end.

Lemma t_dnorm : forall (F : TF) (mu sigma : b64), exp_all_ok F -> log_std F -> small_const (t_LOG_2PI F) -> b64_fin mu -> bofZ 0 ≤ sigma -> b64_densities (fun lf x => dnorm (N:=B64_Num F) x mu sigma lf).
Proof. intros. apply okd_spec. apply (dnorm_okd F mu sigma); side2. Qed.

Lemma t_dlaplace : forall (F : TF) (mu sigma : b64), exp_all_ok F -> log_std F -> b64_fin mu -> bofZ 0 ≤ sigma -> b64_densities (fun lf x => dlaplace (N:=B64_Num F) x mu sigma lf).
Proof. intros. apply okd_spec. apply (dlaplace_okd F mu sigma); side2. Qed.

Lemma t_dlnorm : forall (F : TF) (mu sigma : b64), exp_all_ok F -> log_std F -> small_const (t_LOG_2PI F) -> b64_fin mu -> bofZ 0 ≤ sigma -> b64_densities (fun lf x => dlnorm (N:=B64_Num F) x mu sigma lf).
Proof. intros. apply okd_spec. apply (dlnorm_okd F mu sigma); side2. Qed.

Lemma t_dcauchy : forall (F : TF) (mu sigma : b64), log_std F -> b64_fin (t_PI F) -> bofZ 1 ≤ t_PI F -> b64_fin mu -> b64_pos sigma -> b64_densities (fun lf x => dcauchy (N:=B64_Num F) x mu sigma lf).
Proof. intros. apply okd_spec. apply (dcauchy_okd F mu sigma); side2. Qed.

Lemma t_dexp : forall (F : TF) (rate : b64), exp_all_ok F -> log_std F -> b64_pos rate -> b64_densities (fun lf x => dexp (N:=B64_Num F) x rate lf).
Proof. intros. apply okd_spec. apply (dexp_okd F rate); side2. Qed.

Lemma t_dunif : forall (F : TF) (a b : b64), log_std F -> b64_fin a -> b64_fin b -> a ≺ b -> b64_densities (fun lf x => dunif (N:=B64_Num F) x a b lf).
Proof. intros. apply okd_spec. apply (dunif_okd F a b); side2. Qed.

Lemma t_dgamma : forall (F : TF) (shape scale : b64), lgamma_mid F -> log_std F -> exp_all_ok F -> bofZ 0 ≤ shape -> shape ≤ btwo 990 -> beps ≤ scale -> b64_densities (fun lf x => dgamma (N:=B64_Num F) x shape scale lf).
Proof. intros F shape scale LG_ LS_ EX_. intros. apply okd_spec. apply (dgamma_okd F LG_ LS_ EX_ shape scale); side2. Qed.

Lemma t_dchisq : forall (F : TF) (dof : b64), lgamma_mid F -> log_std F -> exp_all_ok F -> small_const (t_LOG_2 F) -> b64_pos (bmul (blit (1#2)) dof) -> dof ≤ btwo 990 -> b64_densities (fun lf x => dchisq (N:=B64_Num F) x dof lf).
Proof. intros F dof LG_ LS_ EX_. intros. apply okd_spec. apply (dchisq_okd F LG_ LS_ EX_ dof); side2. Qed.

Lemma t_dinvgamma : forall (F : TF) (shape rate : b64), lgamma_mid F -> log_std F -> exp_all_ok F -> bofZ 0 ≤ shape -> shape ≤ btwo 990 -> bofZ 0 ≤ rate -> b64_densities (fun lf x => dinvgamma (N:=B64_Num F) x shape rate lf).
Proof. intros F shape rate LG_ LS_ EX_. intros. apply okd_spec. apply (dinvgamma_okd F LG_ LS_ EX_ shape rate); side2. Qed.

Lemma t_dbeta : forall (F : TF) (a b : b64), lgamma_mid F -> log_std F -> exp_all_ok F -> bofZ 0 ≤ a -> a ≤ btwo 989 -> bofZ 0 ≤ b -> b ≤ btwo 989 -> b64_densities (fun lf x => dbeta (N:=B64_Num F) x a b lf).
Proof. intros F a b LG_ LS_ EX_. intros. apply okd_spec. apply (dbeta_okd F LG_ LS_ EX_ a b); side2. Qed.

Lemma t_dt : forall (F : TF) (dof : b64), lgamma_mid F -> log_std F -> exp_all_ok F -> small_const (t_LOG_PI F) -> small_const (t_LOG_2PI F) -> beps ≤ dof -> (dof ≤ btwo 990 \/ dof = plus_inf) -> b64_densities (fun lf x => dt (N:=B64_Num F) x dof lf).
Proof. intros F dof LG_ LS_ EX_. intros. apply okd_spec. apply (dt_okd F LS_ EX_ dof LG_); side2. Qed.

Lemma t_dlogis : forall (F : TF) (mu sigma : b64), exp_all_ok F -> log_std F -> b64_fin mu -> b64_pos sigma -> b64_densities_on (fun x => b64_fin x -> bdiv (bsub x mu) sigma <> minus_inf) (fun lf x => dlogis (N:=B64_Num F) x mu sigma lf).
Proof. intros. apply okd_on. intros lf x Nx Hx. apply (dlogis_okd F mu sigma lf x); side2. intros Fx. apply Hx. now apply bfin_fin. Qed.

Lemma t_dinvgauss : forall (F : TF) (mu lambda : b64), exp_all_ok F -> log_std F -> small_const (t_LOG_2PI F) -> b64_pos mu -> b64_pos lambda -> b64_densities_on (fun x => b64_pos x -> b64_pos (bmul (bmul (bmul (bofZ 2) mu) mu) x)) (fun lf x => dinvgauss (N:=B64_Num F) x mu lambda lf).
Proof. intros. apply okd_on. intros lf x Nx Hx. apply (dinvgauss_okd F H0 H mu lambda lf x); side2. intros Px. apply pos_bpos, Hx. now apply bpos_pos. Qed.

Lemma t_dweibull : forall (F : TF) (shape scale : b64), exp_all_ok F -> log_std F -> pow_ok F -> beps ≤ shape -> shape ≤ btwo 900 -> big_eps scale -> b64_densities_on (fun x => (b64_pos x -> b64_pos (bdiv x scale)) /\ (Beqb x (bofZ 0) = true -> Beqb shape (bofZ 1) = false)) (fun lf x => dweibull (N:=B64_Num F) x shape scale lf).
Proof. intros. apply okd_on. intros lf x Nx [Hx Hy]. apply (dweibull_okd F H0 H shape scale lf x); side2. intros Px. apply pos_bpos, Hx. now apply bpos_pos. Qed.

Lemma t_dbern : forall (F : TF) (prob : b64), log_std F -> bofZ 0 ≤ prob -> prob ≤ bofZ 1 -> forall lo hi, b64_masses lo hi (fun lf x => dbern (N:=B64_Num F) x prob lf).
Proof. intros F prob LS_ H1 H2 lo hi x _. apply okd_mass. intros lf. now apply (dbern_okd F LS_ prob). Qed.

Lemma t_dradem : forall (F : TF) (prob : b64), log_std F -> bofZ 0 ≤ prob -> prob ≤ bofZ 1 -> forall lo hi, b64_masses lo hi (fun lf x => dradem (N:=B64_Num F) x prob lf).
Proof. intros F prob LS_ H1 H2 lo hi x _. apply okd_mass. intros lf. now apply (dradem_okd F LS_ prob). Qed.

Lemma t_dbinom : forall (F : TF) (n : Z) (prob : b64), log_std F -> exp_all_ok F -> log_binom_ok F -> 0 <= n <= 2 ^ 53 -> bofZ 0 ≤ prob -> prob ≤ bofZ 1 -> forall lo hi, b64_masses lo hi (fun lf x => dbinom (N:=B64_Num F) x n prob lf).
Proof. intros F n prob LS_ EX_ LB Hn H1 H2 lo hi x _. apply okd_mass. intros lf. now apply (dbinom_okd F LS_ EX_ n prob). Qed.

Lemma t_dpois : forall (F : TF) (rate : b64), log_std F -> exp_all_ok F -> lgamma_ge F -> bofZ 0 ≤ rate -> forall lo hi, hi < 2 ^ 53 -> b64_masses lo hi (fun lf x => dpois (N:=B64_Num F) x rate lf).
Proof. intros F rate LS_ EX_ LG_ H1 lo hi Hh x Hx. apply okd_mass. intros lf. apply (dpois_okd F LS_ EX_ rate); auto; lia. Qed.

Lemma tfr_all_d : log_std TFR /\ exp_all_ok TFR /\ lgamma_mid TFR /\ lgamma_ge TFR /\ lgamma_over TFR /\ log_binom_ok TFR /\ pow_ok TFR /\
  small_const (t_LOG_2PI TFR) /\ small_const (t_LOG_PI TFR) /\ small_const (t_LOG_2 TFR) /\ b64_fin (t_PI TFR) /\ bofZ 1 ≤ t_PI TFR.
Proof. exact (conj TFR_log_std (conj TFR_exp_all (conj TFR_lgamma_mid (conj TFR_lgamma_ge (conj TFR_lgamma_over (conj TFR_log_binom (conj TFR_pow (conj TFR_LOG_2PI (conj TFR_LOG_PI (conj TFR_LOG_2 TFR_PI_1)))))))))). Qed.

Lemma t_df_refuted : forall F : TF, exists x df1 df2, b64_pos x /\ b64_pos df1 /\ b64_pos df2 /\ df (N:=B64_Num F) x df1 df2 false ≺ bofZ 0.
Proof. intros F. exists df_x, (bofZ 3), (bofZ 2). do 3 (split; [split; vm_compute; reflexivity|]). apply df_negative. Qed.

Lemma t_df_nan_refuted : forall F : TF, exists x df1 df2, b64_pos x /\ b64_pos df1 /\ b64_pos df2 /\ df (N:=B64_Num F) x df1 df2 false = B754_nan.
Proof. intros F. exists (btwo 60), (bofZ 1), (bofZ 1). do 3 (split; [split; vm_compute; reflexivity|]). apply df_nan. Qed.

Lemma t_dcauchy_refuted : forall F : TF, ~ b64_densities (fun lf x => dcauchy (N:=B64_Num F) x (bofZ 0) (bofZ 0) lf).
Proof. intros F [K _]. exact (no_nan _ (dcauchy_nan F) (K (bofZ 0) ltac:(discriminate))). Qed.

Lemma t_dlogis_scale_refuted : forall F : TF, ~ b64_densities (fun lf x => dlogis (N:=B64_Num F) x (bofZ 0) (bofZ 0) lf).
Proof. intros F [_ K]. exact (K (bofZ 0) ltac:(discriminate) (dlogis_nan0 F)). Qed.

Lemma t_dlogis_refuted : forall F : TF, t_exp F plus_inf = plus_inf -> log_std F -> exists mu, b64_fin mu /\ ~ b64_densities (fun lf x => dlogis (N:=B64_Num F) x mu (bofZ 1) lf).
Proof. intros F H1 H2. exists (btwo 1023). split; [split; vm_compute; reflexivity|]. intros [_ K]. apply (K (Bopp (btwo 1023)) ltac:(discriminate)).
  apply dlogis_nan; auto; [apply H2|]. destruct (log_bmg F (bofZ 1) H2 (bpos_Z 1 ltac:(sm))) as [M _]. apply bfin_fin. now apply bmg_fin in M. Qed.

Lemma t_dinvgauss_refuted : forall F : TF, exists mu, b64_pos mu /\ ~ b64_densities (fun lf x => dinvgauss (N:=B64_Num F) x mu (bofZ 1) lf).
Proof. intros F. exists (btwo (-600)). split; [split; vm_compute; reflexivity|]. intros [_ K]. exact (K (btwo (-600)) ltac:(discriminate) (dinvgauss_nan F)). Qed.

Lemma t_dweibull_refuted : forall F : TF, log_std F -> ~ b64_densities (fun lf x => dweibull (N:=B64_Num F) x (bofZ 1) (bofZ 1) lf).
Proof. intros F H [_ K]. apply (K (bofZ 0) ltac:(discriminate)). apply dweibull_nan. apply H. Qed.

Lemma t_dt_refuted : forall F : TF, lgamma_over F -> exists dof, b64_pos dof /\ ~ b64_densities (fun lf x => dt (N:=B64_Num F) x dof lf).
Proof. intros F H. exists (btwo 1022). split; [split; vm_compute; reflexivity|]. intros [_ K]. apply (K (bofZ 0) ltac:(discriminate)). now apply dt_nan. Qed.

Lemma t_dbeta_refuted : forall F : TF, lgamma_over F -> exists a b, b64_pos a /\ b64_pos b /\ ~ b64_densities (fun lf x => dbeta (N:=B64_Num F) x a b lf).
Proof. intros F H. exists (btwo 1020), (btwo 1020). do 2 (split; [split; vm_compute; reflexivity|]). intros [_ K]. apply (K (blit (1#2)) ltac:(discriminate)). now apply dbeta_nan. Qed.

Lemma t_dgamma_refuted : forall F : TF, lgamma_over F -> bmul (btwo 1023) (t_log F (bofZ 10)) = plus_inf -> exists shape, b64_pos shape /\ ~ b64_densities (fun lf x => dgamma (N:=B64_Num F) x shape (bofZ 1) lf).
Proof. intros F H H2. exists (btwo 1023). split; [split; vm_compute; reflexivity|]. intros [_ K]. apply (K (bofZ 10) ltac:(discriminate)). now apply dgamma_nan. Qed.

Lemma t_u_dnorm : forall (F : TF) (mu sigma : b64), exp_all_ok F -> log_std F -> small_const (t_LOG_2PI F) -> b64_fin mu -> b64_pos sigma -> forall lf, b64_unimodal mu (fun x => dnorm (N:=B64_Num F) x mu sigma lf).
Proof. intros. apply (dnorm_uni F mu sigma); side2. Qed.

Lemma t_u_dlaplace : forall (F : TF) (mu sigma : b64), exp_all_ok F -> log_std F -> b64_fin mu -> b64_pos sigma -> forall lf, b64_unimodal mu (fun x => dlaplace (N:=B64_Num F) x mu sigma lf).
Proof. intros. apply (dlaplace_uni F mu sigma); side2. Qed.

Lemma t_u_dcauchy : forall (F : TF) (mu sigma : b64), log_std F -> b64_fin (t_PI F) -> bofZ 1 ≤ t_PI F -> b64_fin mu -> b64_pos sigma -> forall lf, b64_unimodal mu (fun x => dcauchy (N:=B64_Num F) x mu sigma lf).
Proof. intros. apply (dcauchy_uni F mu sigma); side2. Qed.

Lemma t_u_dexp : forall (F : TF) (rate : b64), exp_all_ok F -> log_std F -> b64_pos rate -> b64_unimodal (bofZ 0) (fun x => dexp (N:=B64_Num F) x rate false).
Proof. intros. apply (dexp_uni F rate); side2. Qed.

Lemma t_dexp_log_refuted : forall F : TF, t_log F (bofZ 1) = bofZ 0 -> exists x y, bofZ 0 ≺ x /\ x ≺ y /\ dexp (N:=B64_Num F) x (bofZ 1) true ≺ dexp (N:=B64_Num F) y (bofZ 1) true.
Proof. intros F H. exists (bofZ 1), plus_inf. split; [vm_compute; reflexivity|]. split; [vm_compute; reflexivity|]. rewrite dexp_log_inf, dexp_log_1 by auto. vm_compute. reflexivity. Qed.
