(** The statements of C67 from the lemmas about the accuracy of densities. *)
From Coq Require Import ZArith QArith Reals Lra Lia.
From Verif Require Import Erf GammaFn BetaFn NormR Spec SpecSF.
From Verif Require Import Num Dens B64 SpecB64 SpecAcc SpecAccD B64R B64Ord B64Cdf B64Cdf2 B64Cdf3 B64CR B64Acc B64AccCdf B64AccCdf2 B64AccCdf3 B64AccW B64Thm3 B64AccLog B64AccDens B64AccDens2 B64AccDens3 B64AccDens4 B64AccDens5 B64AccDens6 B64AccW4 B64CdfBad B64AccDBad B64AccDf.
From Flocq Require Import Core IEEE754.BinarySingleNaN.
Local Open Scope R_scope.
Notation exp := Rtrigo_def.exp. Notation sqrt := R_sqrt.sqrt. Notation PI := Rtrigo1.PI.
Lemma e2_94 : 94 * e2 <= / 1000000000000. Proof. unfold e2. rewrite ulp1_val. lra. Qed.
(** for the examples *)
Lemma gam_ex r : / 2 <= r <= 1000 -> Rabs (ln (Gam r)) <= huge / 64.
Proof. intros H. apply ln_Gam_size. split; [apply Rle_trans with (bpow radix2 (-1)); [apply bpow_le; lia|cbn; lra]|apply Rle_trans with (bpow radix2 10); [cbn; lra|apply bpow_le; lia]]. Qed.
Lemma b900 : 1000 <= bpow radix2 900. Proof. apply Rle_trans with (bpow radix2 10); [cbn; lra|apply bpow_le; lia]. Qed.
Lemma b400 : 1000 <= bpow radix2 400. Proof. apply Rle_trans with (bpow radix2 10); [cbn; lra|apply bpow_le; lia]. Qed.
Lemma mid_ex r : / 1000 <= r <= 1000 -> mid r.
Proof. intros H. pose proof huge_1. pose proof huge_2. pose proof huge_inv. split; rewrite Rabs_pos_eq; lra. Qed.
Lemma mid_exn r : - 1000 <= r <= - / 1000 -> mid r.
Proof. intros H. pose proof huge_1. pose proof huge_2. pose proof huge_inv. split; rewrite Rabs_left; lra. Qed.
Lemma cauchy_ex : / huge <= cauchy_pdf 0 2 1 <= huge.
Proof.
  pose proof huge_2. pose proof huge_inv. pose proof PI2_1. pose proof PI_4. unfold cauchy_pdf. set (w := _ * (1 + _)). assert (W : 1 <= w <= 1000) by (unfold w; replace (((1 - 0) / 2) ^ 2) with (/ 4) by field; lra).
  unfold Rdiv. assert (/ 1000 <= / w <= / 1) by (split; apply Rinv_le_contravar; lra). lra.
Qed.
Lemma pow_ex : Rpower (4 / 2) 3 = 8.
Proof. replace (4 / 2) with 2 by field. replace 3 with (INR 3) by (cbn; lra). rewrite Rpower_pow by lra. cbn. lra. Qed.
Lemma beta_ex : B2R (badd (bofZ 3) (bofZ 2)) = B2R (bofZ 3) + B2R (bofZ 2).
Proof. replace (badd (bofZ 3) (bofZ 2)) with (bofZ 5) by (apply b64_eq; vm_compute; reflexivity). ex_Z. lra. Qed.
Lemma t_ex : B2R (badd (bdiv (bofZ 5) (bofZ 2)) (blit (1#2))) = (B2R (bofZ 5) + 1) / 2.
Proof. replace (badd (bdiv (bofZ 5) (bofZ 2)) (blit (1#2))) with (bofZ 3) by (apply b64_eq; vm_compute; reflexivity). ex_Z. lra. Qed.
Lemma ln_mod r : / 1000 <= r <= 1000 -> ln r <= 1000. Proof. intros H. pose proof (ln_moderate r H). pose proof (Rle_abs (ln r)). lra. Qed.
Ltac ex_Z_in H := rewrite ?(proj1 (bofZ_R 1 ltac:(sm))), ?(proj1 (bofZ_R 2 ltac:(sm))) in H.
Ltac exd_num := cbv zeta; try change (IZR (5 - 2)) with 3;
  try match goal with |- context [Rabs (ln (Binomial.C ?n ?k))] => let H := fresh in assert (H : Rabs (ln (Binomial.C n k)) <= huge / 16) by (apply (ln_choose_size 5 2); lia); revert H; generalize (Rabs (ln (Binomial.C n k))); intros end; rewrite ?half_V; ex_Z; rewrite ?pow_ex; pose proof huge_1; pose proof huge_2; pose proof huge_inv; pose proof ulp1_val; pose proof b900; pose proof b400;
  repeat match goal with |- context [Rabs (ln (Gam ?r))] => let H := fresh in assert (H : Rabs (ln (Gam r)) <= huge / 64) by (apply gam_ex; lra); revert H; generalize (Rabs (ln (Gam r))) end;
  repeat match goal with |- context [Rabs (ln ?r)] => let H := fresh in assert (H : Rabs (ln r) <= 1000) by (apply ln_moderate; lra); revert H; generalize (Rabs (ln r)) end; intros;
  try match goal with |- context [ln ?r] => let H := fresh in assert (H : ln r <= 1000) by (apply ln_mod; lra); revert H; generalize (ln r); intros end;
  repeat match goal with |- context [Rabs ?r] => rewrite (Rabs_pos_eq r) by lra end; unfold e2; try (split; lra); try lra.
Ltac exd := first [exact e2_ok | exact TFR_log_acc | exact TFR_exp_up_acc | exact TFR_lgamma_acc | exact TFR_log_binom_acc | exact TFR_pow_acc | exact TFR_LOG_2PI_acc | exact TFR_LOG_2_acc | exact TFR_LOG_PI_acc | exact TFR_PI_acc
  | (apply finite_Z; sm) | (apply positive_Z; sm) | lia | reflexivity | (split; vm_compute; reflexivity) | exact beta_ex | exact t_ex | solve [ex_Z; exact cauchy_ex] | solve [rewrite ?half_V; ex_Z; apply mid_ex; lra] | solve [ex_Z; right; apply mid_ex; lra] | solve [ex_Z; right; apply mid_exn; lra]
  | solve [split; [vm_compute; reflexivity|rewrite half_V; lra]] | solve [exd_num] | solve [split; exd_num] | idtac].

Lemma ad_dnorm : forall (F : TF) (e : R) (x mu sigma : b64), unit_ok e -> const_acc e (t_LOG_2PI F) (ln (2 * PI)) -> log_acc F e -> exp_up_acc F e -> finite x -> finite mu -> positive sigma -> reach (B2R mu) (B2R sigma) (B2R x) -> ((B2R x - B2R mu) / B2R sigma) * ((B2R x - B2R mu) / B2R sigma) / 2 <= huge / 4 -> 
  density_acc e 15 (3 + Rabs (ln (B2R sigma)) + (B2R x - B2R mu) / B2R sigma * ((B2R x - B2R mu) / B2R sigma) / 2) (dnorm (N:=B64_Num F) x mu sigma) (norm_pdf (B2R mu) (B2R sigma) (B2R x)).
Proof. intros F e x mu sigma He. exact (dnorm_acc F e He x mu sigma). Qed.

Lemma ad_dlnorm : forall (F : TF) (e : R) (x mu sigma : b64), unit_ok e -> const_acc e (t_LOG_2PI F) (ln (2 * PI)) -> log_acc F e -> exp_up_acc F e -> positive x -> finite mu -> positive sigma -> Rabs (B2R mu) <= huge / 2 -> 
  let z := (ln (B2R x) - B2R mu) / B2R sigma in let W := (1 + Rabs (ln (B2R x))) / B2R sigma in
  let S := 5 + Rabs (ln (B2R sigma)) + Rabs (ln (B2R x)) + z * z + W * (1 + Rabs z) in e * W <= / 2 -> S <= huge / 4 ->
  within (19 * e * S) (dlnorm (N:=B64_Num F) x mu sigma true) (ln (lnorm_pdf (B2R mu) (B2R sigma) (B2R x))) /\
  (18 * e * S <= / 400 -> ln (norm_pdf (B2R mu) (B2R sigma) (ln (B2R x))) <= 600 -> lnorm_pdf (B2R mu) (B2R sigma) (B2R x) <= huge -> / huge <= B2R x ->
   near (19 * e * S) (4 * (tiny / B2R x) + tiny) (dlnorm (N:=B64_Num F) x mu sigma false) (lnorm_pdf (B2R mu) (B2R sigma) (B2R x))).
Proof. intros F e x mu sigma He. exact (dlnorm_acc F e He x mu sigma). Qed.

Lemma ad_dexp : forall (F : TF) (e : R) (x rate : b64), unit_ok e -> log_acc F e -> exp_up_acc F e -> finite x -> 0 <= B2R x -> positive rate -> B2R rate * B2R x <= huge / 4 -> 
  density_acc e 5 (2 + Rabs (ln (B2R rate)) + B2R rate * B2R x) (dexp (N:=B64_Num F) x rate) (exp_pdf (B2R rate) (B2R x)).
Proof. intros F e x rate He. exact (dexp_acc F e He x rate). Qed.

Lemma ad_dlaplace : forall (F : TF) (e : R) (x mu sigma : b64), unit_ok e -> log_acc F e -> exp_up_acc F e -> finite x -> finite mu -> positive sigma -> B2R sigma <= huge / 4 -> reach (B2R mu) (B2R sigma) (B2R x) -> Rabs ((B2R x - B2R mu) / B2R sigma) <= huge / 4 -> 
  density_acc e 5 (2 + Rabs (ln (2 * B2R sigma)) + Rabs ((B2R x - B2R mu) / B2R sigma)) (dlaplace (N:=B64_Num F) x mu sigma) (laplace_pdf (B2R mu) (B2R sigma) (B2R x)).
Proof. intros F e x mu sigma He. exact (dlaplace_acc F e He x mu sigma). Qed.

Lemma ad_dlogis : forall (F : TF) (e : R) (x mu sigma : b64), unit_ok e -> log_acc F e -> exp_up_acc F e -> finite x -> finite mu -> positive sigma -> reach (B2R mu) (B2R sigma) (B2R x) -> Rabs ((B2R x - B2R mu) / B2R sigma) <= 600 -> 
  density_acc e 12 (4 + Rabs (ln (B2R sigma)) + 3 * Rabs ((B2R x - B2R mu) / B2R sigma)) (dlogis (N:=B64_Num F) x mu sigma) (logis_pdf (B2R mu) (B2R sigma) (B2R x)).
Proof. intros F e x mu sigma He. exact (dlogis_acc F e He x mu sigma). Qed.

Lemma ad_dcauchy : forall (F : TF) (e : R) (x mu sigma : b64), unit_ok e -> log_acc F e -> const_acc e (t_PI F) PI -> finite x -> finite mu -> positive sigma -> / huge <= B2R sigma <= huge / 4 -> reach (B2R mu) (B2R sigma) (B2R x) -> 1 + (B2R x - B2R mu) / B2R sigma * ((B2R x - B2R mu) / B2R sigma) <= huge / 2 -> / huge <= cauchy_pdf (B2R mu) (B2R sigma) (B2R x) <= huge -> 
  let p := cauchy_pdf (B2R mu) (B2R sigma) (B2R x) in within (63 * e * (1 + Rabs (ln p))) (dcauchy (N:=B64_Num F) x mu sigma true) (ln p) /\ near (60 * e) 0 (dcauchy (N:=B64_Num F) x mu sigma false) p.
Proof. intros F e x mu sigma He. exact (dcauchy_acc F e He x mu sigma). Qed.

Lemma ad_dunif : forall (F : TF) (e : R) (x a b : b64), unit_ok e -> log_acc F e -> finite x -> finite a -> finite b -> B2R a < B2R b -> B2R a <= B2R x <= B2R b -> / huge <= B2R b - B2R a <= huge -> 
  let p := unif_pdf (B2R a) (B2R b) in within (4 * e * (1 + Rabs (ln (B2R b - B2R a)))) (dunif (N:=B64_Num F) x a b true) (ln p) /\ near (2 * e) tiny (dunif (N:=B64_Num F) x a b false) p.
Proof. intros F e x a b He. exact (dunif_acc F e He x a b). Qed.

Lemma ad_dgamma : forall (F : TF) (e : R) (x shape scale : b64), unit_ok e -> lgamma_acc F e -> log_acc F e -> exp_up_acc F e -> positive x -> positive shape -> B2R shape <= bpow radix2 900 -> positive scale -> Bleb beps scale = true -> 
  let S := 4 + Rabs (ln (Gam (B2R shape))) + B2R shape * (1 + Rabs (ln (B2R scale))) + Rabs (B2R shape - 1) * (1 + Rabs (ln (B2R x))) + B2R x / B2R scale in S <= huge / 4 -> density_acc e 11 S (dgamma (N:=B64_Num F) x shape scale) (gamma_pdf (B2R shape) (B2R scale) (B2R x)).
Proof. intros F e x shape scale He. exact (dgamma_acc F e He x shape scale). Qed.

Lemma ad_dinvgamma : forall (F : TF) (e : R) (x shape rate : b64), unit_ok e -> lgamma_acc F e -> log_acc F e -> exp_up_acc F e -> positive x -> positive shape -> B2R shape <= bpow radix2 900 -> positive rate -> 
  let S := 4 + Rabs (ln (Gam (B2R shape))) + B2R shape * (1 + Rabs (ln (B2R rate))) + (B2R shape + 1) * (1 + Rabs (ln (B2R x))) + B2R rate / B2R x in S <= huge / 4 -> density_acc e 11 S (dinvgamma (N:=B64_Num F) x shape rate) (invgamma_pdf (B2R shape) (B2R rate) (B2R x)).
Proof. intros F e x shape rate He. exact (dinvgamma_acc F e He x shape rate). Qed.

Lemma ad_dchisq : forall (F : TF) (e : R) (x dof : b64), unit_ok e -> const_acc e (t_LOG_2 F) (ln 2) -> lgamma_acc F e -> log_acc F e -> exp_up_acc F e -> positive x -> positive dof -> / huge <= B2R dof <= bpow radix2 900 -> 
  let S := 4 + Rabs (ln (Gam (B2R dof / 2))) + B2R dof / 2 + Rabs (B2R dof / 2 - 1) * (1 + Rabs (ln (B2R x))) + B2R x / 2 in S <= huge / 4 -> density_acc e 11 S (dchisq (N:=B64_Num F) x dof) (chisq_pdf (B2R dof) (B2R x)).
Proof. intros F e x dof He. exact (dchisq_acc F e He x dof). Qed.

Lemma ad_dbeta : forall (F : TF) (e : R) (x a b : b64), unit_ok e -> lgamma_acc F e -> log_acc F e -> exp_up_acc F e -> positive x -> B2R x < 1 -> positive a -> positive b -> B2R (badd a b) = B2R a + B2R b -> B2R a + B2R b <= bpow radix2 900 -> 
  let S := 5 + Rabs (ln (Gam (B2R a))) + Rabs (ln (Gam (B2R b))) + Rabs (ln (Gam (B2R a + B2R b))) + Rabs (B2R a - 1) * (1 + Rabs (ln (B2R x))) + Rabs (B2R b - 1) * (1 + Rabs (ln (1 - B2R x))) in S <= huge / 4 -> density_acc e 11 S (dbeta (N:=B64_Num F) x a b) (beta_pdf (B2R a) (B2R b) (B2R x)).
Proof. intros F e x a b He. exact (dbeta_acc F e He x a b). Qed.

Lemma ad_dt : forall (F : TF) (e : R) (x dof : b64), unit_ok e -> const_acc e (t_LOG_PI F) (ln PI) -> lgamma_acc F e -> log_acc F e -> exp_up_acc F e -> finite x -> finite dof -> Bleb beps dof = true -> B2R dof <= bpow radix2 900 -> Rabs (B2R x) <= bpow radix2 400 -> B2R (badd (bdiv dof (bofZ 2)) (blit (1#2))) = (B2R dof + 1) / 2 -> 
  let S := 5 + Rabs (ln (Gam ((B2R dof + 1) / 2))) + Rabs (ln (Gam (B2R dof / 2))) + Rabs (ln (B2R dof)) + (B2R dof + 1) / 2 * (1 + ln (1 + B2R x / B2R dof * B2R x)) in S <= huge / 4 -> density_acc e 27 S (dt (N:=B64_Num F) x dof) (t_pdf (B2R dof) (B2R x)).
Proof. intros F e x dof He. exact (dt_acc F e He x dof). Qed.

Lemma ad_dweibull : forall (F : TF) (e : R) (x shape scale : b64), unit_ok e -> pow_acc F e -> log_acc F e -> exp_up_acc F e -> positive x -> finite shape -> finite scale -> Bleb beps shape = true -> Bleb beps scale = true -> mid (B2R shape / B2R scale) -> mid (B2R x / B2R scale) -> B2R shape * e <= / 1000 -> 
  let z := B2R x / B2R scale in let S := 3 + Rabs (ln (B2R shape / B2R scale)) + Rabs (B2R shape - 1) * (1 + Rabs (ln z)) + (1 + B2R shape) * Rpower z (B2R shape) in S <= huge / 8 -> density_acc e 13 S (dweibull (N:=B64_Num F) x shape scale) (weibull_pdf (B2R shape) (B2R scale) (B2R x)).
Proof. intros F e x shape scale He. exact (dweibull_acc F e He x shape scale). Qed.

Lemma ad_dinvgauss : forall (F : TF) (e : R) (x mu lambda : b64), unit_ok e -> const_acc e (t_LOG_2PI F) (ln (2 * PI)) -> log_acc F e -> exp_up_acc F e -> positive x -> positive mu -> positive lambda -> mid0 ((B2R x - B2R mu) * (B2R x - B2R mu)) -> mid0 (- B2R lambda * ((B2R x - B2R mu) * (B2R x - B2R mu))) -> mid (2 * B2R mu) -> mid (2 * B2R mu * B2R mu) -> mid (2 * B2R mu * B2R mu * B2R x) -> 
  let q := B2R lambda * ((B2R x - B2R mu) * (B2R x - B2R mu)) / (2 * B2R mu * B2R mu * B2R x) in let S := 5 + 2 * Rabs (ln (B2R x)) + Rabs (ln (B2R lambda)) + q in S <= huge / 4 -> density_acc e 16 S (dinvgauss (N:=B64_Num F) x mu lambda) (invgauss_pdf (B2R mu) (B2R lambda) (B2R x)).
Proof. intros F e x mu lambda He. exact (dinvgauss_acc F e He x mu lambda). Qed.

Lemma ad_df : forall (F : TF) (e : R) (x df1 df2 : b64), unit_ok e -> lgamma_acc F e -> log_acc F e -> exp_up_acc F e -> positive x -> big_eps df1 -> big_eps df2 -> B2R df1 <= bpow radix2 900 -> B2R df2 <= bpow radix2 900 -> B2R (badd (bdiv df1 (bofZ 2)) (bdiv df2 (bofZ 2))) = (B2R df1 + B2R df2) / 2 -> 
  let c := B2R df1 * B2R x / B2R df2 in let q := 1 + c in let a := B2R df1 / 2 in let b := B2R df2 / 2 in let u := c / q in let j := B2R df1 / B2R df2 / q / q in
  mid (B2R df1 * B2R x) -> mid c -> mid u -> mid (B2R df1 / B2R df2) -> mid (B2R df1 / B2R df2 / q) -> mid j -> 5000 * e * q <= 1 ->
  let S := q * (5 + Rabs (ln (Gam a)) + Rabs (ln (Gam b)) + Rabs (ln (Gam (a + b))) + Rabs (a - 1) * (1 + Rabs (ln u)) + Rabs (b - 1) * (1 + Rabs (ln (1 - u))) + Rabs (ln j)) in
  32 * e * S <= / 200 -> let p := f_pdf (B2R df1) (B2R df2) (B2R x) in
  within (32 * e * S) (df (N:=B64_Num F) x df1 df2 true) (ln p) /\
  (ln (beta_pdf a b u) <= 599 -> p <= huge -> near (32 * e * S) ((4 * j + 1) * tiny) (df (N:=B64_Num F) x df1 df2 false) p).
Proof. intros F e x df1 df2 He. exact (df_acc F e He x df1 df2). Qed.

Lemma df_num : (lgamma_acc TFR e2 -> log_acc TFR e2 -> exp_up_acc TFR e2 -> positive (bofZ 1) -> big_eps (bofZ 2) -> big_eps (bofZ 2) -> B2R (bofZ 2) <= bpow radix2 900 -> B2R (bofZ 2) <= bpow radix2 900 -> B2R (badd (bdiv (bofZ 2) (bofZ 2)) (bdiv (bofZ 2) (bofZ 2))) = (B2R (bofZ 2) + B2R (bofZ 2)) / 2 ->
  let c := B2R (bofZ 2) * B2R (bofZ 1) / B2R (bofZ 2) in let q := 1 + c in let a := B2R (bofZ 2) / 2 in let b := B2R (bofZ 2) / 2 in let u := c / q in let j := B2R (bofZ 2) / B2R (bofZ 2) / q / q in
  mid (B2R (bofZ 2) * B2R (bofZ 1)) -> mid c -> mid u -> mid (B2R (bofZ 2) / B2R (bofZ 2)) -> mid (B2R (bofZ 2) / B2R (bofZ 2) / q) -> mid j -> 5000 * e2 * q <= 1 ->
  let S := q * (5 + Rabs (ln (Gam a)) + Rabs (ln (Gam b)) + Rabs (ln (Gam (a + b))) + Rabs (a - 1) * (1 + Rabs (ln u)) + Rabs (b - 1) * (1 + Rabs (ln (1 - u))) + Rabs (ln j)) in
  32 * e2 * S <= / 200 -> let p := f_pdf (B2R (bofZ 2)) (B2R (bofZ 2)) (B2R (bofZ 1)) in
  within (32 * e2 * S) (df (N:=B64_Num TFR) (bofZ 1) (bofZ 2) (bofZ 2) true) (ln p) /\
  (ln (beta_pdf a b u) <= 599 -> p <= huge -> near (32 * e2 * S) ((4 * j + 1) * tiny) (df (N:=B64_Num TFR) (bofZ 1) (bofZ 2) (bofZ 2) false) p)) -> within (448 * e2) (df (N:=B64_Num TFR) (bofZ 1) (bofZ 2) (bofZ 2) true) (ln (f_pdf 2 2 1)) /\ near (448 * e2) (2 * tiny) (df (N:=B64_Num TFR) (bofZ 1) (bofZ 2) (bofZ 2) false) (f_pdf 2 2 1).
Proof.
  intros A. assert (H2 : big_eps (bofZ 2)) by (split; vm_compute; reflexivity). assert (ED : B2R (badd (bdiv (bofZ 2) (bofZ 2)) (bdiv (bofZ 2) (bofZ 2))) = (B2R (bofZ 2) + B2R (bofZ 2)) / 2).
  { replace (badd (bdiv (bofZ 2) (bofZ 2)) (bdiv (bofZ 2) (bofZ 2))) with (bofZ 2) by (apply b64_eq; vm_compute; reflexivity). ex_Z. lra. }
  assert (Z2 : B2R (bofZ 2) <= bpow radix2 900) by (ex_Z; pose proof b900; lra).
  specialize (A TFR_lgamma_acc TFR_log_acc TFR_exp_up_acc ltac:(apply positive_Z; sm) H2 H2 Z2 Z2 ED). clear H2 ED Z2. cbv zeta in A. ex_Z_in A.
  replace (2 * 1 / 2) with 1 in A by lra. replace (1 + 1) with 2 in A by lra. replace (2 / 2) with 1 in A by lra. replace (1 + 1) with 2 in A by lra. replace (1 - 1) with 0 in A by lra. replace (1 / 2 / 2) with (/ 4) in A by lra.
  assert (G2 : Gam 2 = 1) by (replace 2 with (1 + 1) by lra; rewrite Gam_rec, Gam_1 by lra; lra). rewrite G2, Gam_1, ln_1, Rabs_R0, !Rmult_0_l, !Rplus_0_r in A.
  assert (L4 : Rabs (ln (/ 4)) <= 2). { rewrite ln_Rinv, Rabs_Ropp by lra. replace 4 with (2 * 2) by lra. rewrite ln_mult by lra. pose proof ln2_01. rewrite Rabs_pos_eq; lra. }
  pose proof ulp1_val as U. pose proof (Rabs_pos (ln (/ 4))) as L0. assert (E : e2 = 2 * ulp1) by reflexivity. assert (E0 : 0 <= e2 <= / 1000000000000) by lra. pose proof huge_2 as HH.
  assert (EL : e2 * Rabs (ln (/ 4)) <= e2 * 2) by (apply Rmult_le_compat_l; lra). assert (EL0 : 0 <= e2 * Rabs (ln (/ 4))) by (apply Rmult_le_pos; lra).
  destruct A as [A1 A2]; try (apply mid_ex; lra); try lra. split; [eapply within_le; [exact A1|lra]|].
  assert (EP : f_pdf 2 2 1 = / 4). { rewrite f_pdf_beta by lra. replace (2 * 1 / 2) with 1 by lra. replace (1 / (1 + 1)) with (/ 2) by lra. replace (2 / 2) with 1 by lra.
    unfold beta_pdf. replace (1 - 1) with 0 by lra. rewrite !Rpower_O by lra. assert (HB : Beta 1 1 = 1). { pose proof (Beta_Gam 1 1 ltac:(lra) ltac:(lra)) as B. replace (1 + 1) with 2 in B by lra. rewrite G2, Gam_1 in B. lra. } rewrite HB. lra. }
  eapply near_le; [apply A2|lra|]; [|rewrite EP; lra|pose proof (bpow_gt_0 radix2 (-1074)); unfold tiny; lra].
  destruct (ln_beta_pdf 1 1 (1 / 2) ltac:(lra) ltac:(lra) ltac:(lra)) as [EB _]. rewrite EB. replace (1 + 1) with 2 by lra. rewrite G2, Gam_1, ln_1. lra.
Qed.

Lemma ad_dpois : forall (F : TF) (e : R) (x : Z) (rate : b64), unit_ok e -> lgamma_acc F e -> log_acc F e -> exp_up_acc F e -> (0 <= x < 2 ^ 53)%Z -> positive rate -> 
  let S := 3 + IZR x * (1 + Rabs (ln (B2R rate))) + B2R rate + Rabs (ln (Gam (IZR x + 1))) in S <= huge / 4 -> density_acc e 9 S (dpois (N:=B64_Num F) x rate) (pois_pmf (B2R rate) (Z.to_nat x)).
Proof. intros F e x rate He. exact (dpois_acc F e He x rate). Qed.

Lemma ad_dbinom : forall (F : TF) (e : R) (n x : Z) (p : b64), unit_ok e -> log_binom_acc F e -> log_acc F e -> exp_up_acc F e -> (2 <= n <= 2 ^ 53)%Z -> (0 <= x <= n)%Z -> finite p -> 0 < B2R p < 1 -> 
  let S := 3 + Rabs (ln (Binomial.C (Z.to_nat n) (Z.to_nat x))) + IZR x * (1 + Rabs (ln (B2R p))) + IZR (n - x) * (1 + Rabs (ln (1 - B2R p))) in S <= huge / 4 -> density_acc e 9 S (dbinom (N:=B64_Num F) x n p) (binom_pmf (Z.to_nat n) (B2R p) (Z.to_nat x)).
Proof. intros F e n x p He. exact (dbinom_acc F e He n x p). Qed.

Lemma ad_dbern : forall (F : TF) (e : R) (p : b64) (x : Z), unit_ok e -> log_acc F e -> finite p -> 0 < B2R p < 1 -> (x = 0 \/ x = 1)%Z -> 
  let r := bern_pmf (B2R p) x in within (4 * e * (1 + Rabs (ln r))) (dbern (N:=B64_Num F) x p true) (ln r) /\ near (1 * e) 0 (dbern (N:=B64_Num F) x p false) r.
Proof. intros F e p x He. exact (dbern_acc F e He p x). Qed.

Lemma ad_dradem : forall (F : TF) (e : R) (p : b64) (x : Z), unit_ok e -> log_acc F e -> finite p -> 0 < B2R p < 1 -> (x = -1 \/ x = 1)%Z -> 
  let r := radem_pmf (B2R p) x in within (4 * e * (1 + Rabs (ln r))) (dradem (N:=B64_Num F) x p true) (ln r) /\ near (1 * e) 0 (dradem (N:=B64_Num F) x p false) r.
Proof. intros F e p x He. exact (dradem_acc F e He p x). Qed.

Lemma tfr_all_d : unit_ok e2 /\ log_acc TFR e2 /\ exp_up_acc TFR e2 /\ lgamma_acc TFR e2 /\ log_binom_acc TFR e2 /\ pow_acc TFR e2 /\
  const_acc e2 (t_LOG_2PI TFR) (ln (2 * PI)) /\ const_acc e2 (t_LOG_2 TFR) (ln 2) /\ const_acc e2 (t_LOG_PI TFR) (ln PI) /\ const_acc e2 (t_PI TFR) PI.
Proof. exact (conj e2_ok (conj TFR_log_acc (conj TFR_exp_up_acc (conj TFR_lgamma_acc (conj TFR_log_binom_acc (conj TFR_pow_acc (conj TFR_LOG_2PI_acc (conj TFR_LOG_2_acc (conj TFR_LOG_PI_acc TFR_PI_acc))))))))). Qed.

Lemma dexp_plain : near (94 * e2) tiny (dexp (N:=B64_Num TFR) (bofZ 3) (bofZ 2) false) (exp_pdf 2 3).
Proof.
  assert (Q : density_acc e2 5 (2 + Rabs (ln (B2R (bofZ 2))) + B2R (bofZ 2) * B2R (bofZ 3)) (dexp (N:=B64_Num TFR) (bofZ 3) (bofZ 2)) (exp_pdf (B2R (bofZ 2)) (B2R (bofZ 3)))) by (apply (ad_dexp TFR e2 (bofZ 3) (bofZ 2)); exd).
  rewrite (proj1 (bofZ_R 2 ltac:(sm))), (proj1 (bofZ_R 3 ltac:(sm))) in Q. destruct Q as [_ Q]. pose proof ln2_01. pose proof ulp1_val as U. rewrite (Rabs_pos_eq (ln 2)) in Q by lra. unfold e2 in *.
  eapply near_le; [apply Q| |lra].
  - rewrite U. lra.
  - unfold exp_pdf. rewrite ln_mult, ln_exp by (try apply exp_pos; lra). lra.
  - rewrite U. lra.
Qed.

Lemma ad_dlogis_refuted : exists x, finite x /\ B2R x = -2000 /\ dlogis (N:=B64_Num TFR) x (bofZ 0) (bofZ 1) true = minus_inf /\ -2001 <= ln (logis_pdf 0 1 (B2R x)) <= -1999.
Proof. exact dlogis_lost. Qed.

Lemma ad_dcauchy_refuted : exists x, finite x /\ dcauchy (N:=B64_Num TFR) x (bofZ 0) (bofZ 1) true = minus_inf /\ B2R (dcauchy (N:=B64_Num TFR) x (bofZ 0) (bofZ 1) false) = 0 /\ bpow radix2 (-1030) <= cauchy_pdf 0 1 (B2R x).
Proof. exact dcauchy_lost. Qed.
