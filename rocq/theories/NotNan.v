(** Finite valid inputs give a value that is not NaN. *)
From Coq Require Import Reals ZArith QArith Bool Lra Lia.
From Verif Require Import Num Sanity ER ERTac Prob Dens Quant Spec SpecER ClosedElem RealElem
  LogForm Support Elem Norm NormR SpecSF FamR FamG FamB GammaFn BetaFn Discrete DiscreteQ Bound Mono InvGaussR InvGaussQ QtBad Sym WitnessSF.
Local Open Scope R_scope.

Lemma val_nn lf r : 0 <= r -> val lf r <> NaN.
Proof.
  intros H. destruct lf; unfold val; [|discriminate]. unfold elog. destruct Rlt_dec; [lra|].
  destruct Req_EM_T; discriminate.
Qed.
Lemma zero_nn lf : zero_form lf <> NaN. Proof. destruct lf; discriminate. Qed.
Lemma limit_nn f a v lf : limit_right f a v -> (forall x, a < x -> 0 <= f x) -> ev lf v <> NaN.
Proof.
  intros H P. destruct v; cbn in H; try contradiction; [destruct lf; discriminate|].
  destruct lf; [|discriminate]. apply (val_nn true).
  destruct (Rle_lt_dec 0 r) as [L|L]; auto. exfalso.
  destruct (H (- r) ltac:(lra)) as (d & Hd & Hx).
  specialize (Hx (a + d / 2) ltac:(lra)). specialize (P (a + d / 2) ltac:(lra)).
  apply Rabs_def2 in Hx. lra.
Qed.
Lemma unit_ev_nn F lf x : unit_valued F -> ev lf (F (Fin x)) <> NaN.
Proof.
  intros H. destruct (H (Fin x) ltac:(discriminate)) as (r & -> & Hr). destruct lf; [apply (val_nn true); lra|discriminate].
Qed.
Lemma ql_nn q lo hi p : quantile_like q lo hi -> 0 <= p <= 1 -> q (Fin p) <> NaN.
Proof. intros (_ & _ & _ & H) Hp E. destruct (H p Hp) as (A & B). rewrite E in A. now destruct lo. Qed.
Section S.
Variable S : SF.
Notation NS := (ER_Num S).
Notation eps := (sf_eps S).
Lemma chisq_pdf_pos n x : 0 < n -> 0 < chisq_pdf n x.
Proof.
  intros. unfold chisq_pdf. pose proof (Gam_pos (n / 2) ltac:(lra)). apply Rdiv_lt_0_compat.
  - apply Rmult_lt_0_compat; apply exp_pos.
  - apply Rmult_lt_0_compat; auto. apply exp_pos.
Qed.
Lemma weibull_pdf_pos k th x : 0 < k -> 0 < th -> 0 < weibull_pdf k th x.
Proof.
  intros. unfold weibull_pdf. repeat apply Rmult_lt_0_compat; try apply exp_pos; auto. now apply Rinv_0_lt_compat.
Qed.
Lemma dnorm_nan x mu s lf : 0 < s ->
  dnorm (N:=NS) (Fin x) (Fin mu) (Fin s) lf <> NaN.
Proof.
  intros. rewrite dnorm_val by auto. apply val_nn. left. now apply norm_pdf_pos.
Qed.
Lemma dlaplace_nan x mu s lf : 0 < s ->
  dlaplace (N:=NS) (Fin x) (Fin mu) (Fin s) lf <> NaN.
Proof.
  intros. rewrite dlaplace_val by auto. apply val_nn. left. now apply laplace_pdf_pos.
Qed.
Lemma dlogis_nan x mu s lf : 0 < s ->
  dlogis (N:=NS) (Fin x) (Fin mu) (Fin s) lf <> NaN.
Proof.
  intros. rewrite dlogis_val by auto. apply val_nn. left. now apply logis_pdf_pos.
Qed.
Lemma dcauchy_nan x mu s lf : 0 < s ->
  dcauchy (N:=NS) (Fin x) (Fin mu) (Fin s) lf <> NaN.
Proof.
  intros. rewrite dcauchy_val by auto. apply val_nn. left. now apply cauchy_pdf_pos.
Qed.
Lemma dgamma_nan x k th lf : lgamma_spec S -> 0 < eps -> 0 < k -> eps <= th ->
  dgamma (N:=NS) (Fin x) (Fin k) (Fin th) lf <> NaN.
Proof.
  intros. destruct (Rtotal_order x 0) as [L|[->|L]].
  - rewrite dgamma_out by (try lra; apply Elt_Fin; lra). apply zero_nn.
  - destruct (dgamma_at0 S k th lf) as (v & -> & H'); auto; try (intuition lra).
    eapply limit_nn; [exact H'|]. intros. left. apply gamma_pdf_pos; lra.
  - rewrite dgamma_val by (auto; lra). apply val_nn. left. apply gamma_pdf_pos; lra.
Qed.
Lemma dchisq_nan x n lf : lgamma_spec S -> 0 < n ->
  dchisq (N:=NS) (Fin x) (Fin n) lf <> NaN.
Proof.
  intros. destruct (Rtotal_order x 0) as [L|[->|L]].
  - rewrite dchisq_out by (try lra; apply Elt_Fin; lra). apply zero_nn.
  - destruct (dchisq_at0 S n lf) as (v & -> & H'); auto; try (intuition lra).
    eapply limit_nn; [exact H'|]. intros. left. apply chisq_pdf_pos; lra.
  - rewrite dchisq_val by (auto; lra). apply val_nn. left. apply chisq_pdf_pos; lra.
Qed.
Lemma dinvgamma_nan x a b lf : lgamma_spec S -> 0 < a -> 0 < b ->
  dinvgamma (N:=NS) (Fin x) (Fin a) (Fin b) lf <> NaN.
Proof.
  intros. destruct (Rtotal_order x 0) as [L|[->|L]].
  - rewrite dinvgamma_out by (try lra; apply Elt_Fin; lra). apply zero_nn.
  - destruct (dinvgamma_at0 S a b lf) as (v & -> & H'); auto; try (intuition lra).
    eapply limit_nn; [exact H'|]. intros. left. apply invgamma_pdf_pos; lra.
  - rewrite dinvgamma_val by (auto; lra). apply val_nn. left. apply invgamma_pdf_pos; lra.
Qed.
Lemma dinvgauss_nan x mu l lf : 0 < mu -> 0 < l ->
  dinvgauss (N:=NS) (Fin x) (Fin mu) (Fin l) lf <> NaN.
Proof.
  intros. destruct (Rtotal_order x 0) as [L|[->|L]].
  - rewrite dinvgauss_out by (try lra; apply Elt_Fin; lra). apply zero_nn.
  - destruct (dinvgauss_at0 S mu l lf) as (v & -> & H'); auto; try (intuition lra).
    eapply limit_nn; [exact H'|]. intros. left. apply invgauss_pdf_pos; lra.
  - rewrite dinvgauss_val by (auto; lra). apply val_nn. left. apply invgauss_pdf_pos; lra.
Qed.
Lemma dlnorm_nan x mu s lf : 0 < s ->
  dlnorm (N:=NS) (Fin x) (Fin mu) (Fin s) lf <> NaN.
Proof.
  intros. destruct (Rtotal_order x 0) as [L|[->|L]].
  - rewrite dlnorm_out by (try lra; apply Elt_Fin; lra). apply zero_nn.
  - destruct (dlnorm_at0 S mu s lf) as (v & -> & H'); auto; try (intuition lra).
    eapply limit_nn; [exact H'|]. intros. left. apply lnorm_pdf_pos; lra.
  - rewrite dlnorm_val by (auto; lra). apply val_nn. left. apply lnorm_pdf_pos; lra.
Qed.
Lemma dweibull_nan x k th lf : 0 < eps -> eps <= k -> eps <= th -> k <> 1 \/ x <> 0 ->
  dweibull (N:=NS) (Fin x) (Fin k) (Fin th) lf <> NaN.
Proof.
  intros. destruct (Rtotal_order x 0) as [L|[->|L]].
  - rewrite dweibull_out by (try lra; apply Elt_Fin; lra). apply zero_nn.
  - destruct (dweibull_at0 S k th lf) as (v & -> & H'); auto; try (intuition lra).
    eapply limit_nn; [exact H'|]. intros. left. apply weibull_pdf_pos; lra.
  - rewrite dweibull_val by (auto; lra). apply val_nn. left. apply weibull_pdf_pos; lra.
Qed.
Lemma df_nan x d1 d2 lf : lgamma_spec S -> 0 < eps -> eps <= d1 -> eps <= d2 ->
  df (N:=NS) (Fin x) (Fin d1) (Fin d2) lf <> NaN.
Proof.
  intros. destruct (Rtotal_order x 0) as [L|[->|L]].
  - rewrite df_out by (try lra; apply Elt_Fin; lra). apply zero_nn.
  - destruct (df_at0 S d1 d2 lf) as (v & -> & H'); auto; try (intuition lra).
    eapply limit_nn; [exact H'|]. intros. left. apply f_pdf_pos; lra.
  - rewrite df_val by (auto; lra). apply val_nn. left. apply f_pdf_pos; lra.
Qed.
Lemma dbeta_nan x a b lf : lgamma_spec S -> 0 < a -> 0 < b ->
  dbeta (N:=NS) (Fin x) (Fin a) (Fin b) lf <> NaN.
Proof.
  intros HL Ha Hb. assert (P : forall y, 0 <= beta_pdf a b y) by (intros; left; apply beta_pdf_pos; auto).
  destruct (Rtotal_order x 0) as [L|[->|L]].
  - rewrite dbeta_out by (try lra; left; apply Elt_Fin; lra). apply zero_nn.
  - destruct (dbeta_at0 S a b lf Ha Hb) as (v & -> & H'). eapply limit_nn; [exact H'|]. auto.
  - destruct (Rtotal_order x 1) as [M|[->|M]].
    + rewrite dbeta_val by (auto; lra). now apply val_nn.
    + destruct (dbeta_at1 S a b lf Ha Hb) as (v & -> & H'). eapply limit_nn; [exact H'|]. cbn. auto.
    + rewrite dbeta_out by (try lra; right; apply Elt_Fin; lra). apply zero_nn.
Qed.
Lemma dexp_nan x r lf : 0 < r ->
  dexp (N:=NS) (Fin x) (Fin r) lf <> NaN.
Proof.
  intros. destruct (Rlt_le_dec x 0).
  - rewrite dexp_out by (try lra; apply Elt_Fin; lra). apply zero_nn.
  - rewrite dexp_val by auto. apply val_nn. left. now apply exp_pdf_pos.
Qed.
Lemma dunif_nan x a b lf : a < b ->
  dunif (N:=NS) (Fin x) (Fin a) (Fin b) lf <> NaN.
Proof.
  intros. destruct (Rlt_le_dec x a); [|destruct (Rlt_le_dec b x)].
  - rewrite dunif_out by auto. apply val_nn. lra.
  - rewrite dunif_out by auto. apply val_nn. lra.
  - rewrite dunif_val by auto. apply val_nn. left. unfold unif_pdf. apply Rdiv_lt_0_compat; lra.
Qed.
Lemma dt_nan x n lf : lgamma_spec S -> 0 < eps -> eps <= n ->
  dt (N:=NS) (Fin x) (Fin n) lf <> NaN.
Proof.
  intros. rewrite dt_val by auto. apply val_nn. left. apply t_pdf_pos. lra.
Qed.
Lemma pexp_nan x r lf : 0 < r ->
  pexp (N:=NS) (Fin x) (Fin r) lf <> NaN.
Proof.
  intros.
  assert (U : unit_valued (fun x => pexp (N:=NS) x (Fin r) false)) by (eapply cdf_like_unit; apply pexp_like; auto).
  pose proof (unit_ev_nn _ lf x U) as E. destruct lf; [rewrite pexp_log|]; exact E.
Qed.
Lemma punif_nan x a b lf : a < b ->
  punif (N:=NS) (Fin x) (Fin a) (Fin b) lf <> NaN.
Proof.
  intros.
  assert (U : unit_valued (fun x => punif (N:=NS) x (Fin a) (Fin b) false)) by (eapply cdf_like_unit; apply punif_like; auto).
  pose proof (unit_ev_nn _ lf x U) as E. destruct lf; [rewrite punif_log|]; exact E.
Qed.
Lemma plaplace_nan x mu s lf : 0 < s ->
  plaplace (N:=NS) (Fin x) (Fin mu) (Fin s) lf <> NaN.
Proof.
  intros.
  assert (U : unit_valued (fun x => plaplace (N:=NS) x (Fin mu) (Fin s) false)) by (eapply cdf_like_unit; apply plaplace_like; auto).
  pose proof (unit_ev_nn _ lf x U) as E. destruct lf; [rewrite plaplace_log|]; exact E.
Qed.
Lemma plogis_nan x mu s lf : 0 < s ->
  plogis (N:=NS) (Fin x) (Fin mu) (Fin s) lf <> NaN.
Proof.
  intros.
  assert (U : unit_valued (fun x => plogis (N:=NS) x (Fin mu) (Fin s) false)) by (eapply cdf_like_unit; apply plogis_like; auto).
  pose proof (unit_ev_nn _ lf x U) as E. destruct lf; [rewrite plogis_log|]; exact E.
Qed.
Lemma pcauchy_nan x mu s lf : 0 < s ->
  pcauchy (N:=NS) (Fin x) (Fin mu) (Fin s) lf <> NaN.
Proof.
  intros.
  assert (U : unit_valued (fun x => pcauchy (N:=NS) x (Fin mu) (Fin s) false)) by (eapply cdf_like_unit; apply pcauchy_like; auto).
  pose proof (unit_ev_nn _ lf x U) as E. destruct lf; [rewrite pcauchy_log|]; exact E.
Qed.
Lemma pweibull_nan x k th lf : 0 < eps -> eps <= k -> eps <= th ->
  pweibull (N:=NS) (Fin x) (Fin k) (Fin th) lf <> NaN.
Proof.
  intros.
  assert (U : unit_valued (fun x => pweibull (N:=NS) x (Fin k) (Fin th) false)) by (eapply cdf_like_unit; apply pweibull_like; auto).
  pose proof (unit_ev_nn _ lf x U) as E. destruct lf; [rewrite pweibull_log|]; exact E.
Qed.
Lemma pnorm_nan x mu s lf : erf_spec S -> 0 < s ->
  pnorm (N:=NS) (Fin x) (Fin mu) (Fin s) lf <> NaN.
Proof.
  intros.
  assert (U : unit_valued (fun x => pnorm (N:=NS) x (Fin mu) (Fin s) false)) by (eapply cdf_like_unit; apply pnorm_like; auto).
  pose proof (unit_ev_nn _ lf x U) as E. destruct lf; [rewrite pnorm_log|]; exact E.
Qed.
Lemma plnorm_nan x mu s lf : erf_spec S -> 0 < eps -> 0 < s ->
  plnorm (N:=NS) (Fin x) (Fin mu) (Fin s) lf <> NaN.
Proof.
  intros.
  assert (U : unit_valued (fun x => plnorm (N:=NS) x (Fin mu) (Fin s) false)) by (eapply cdf_like_unit; apply plnorm_like; auto).
  pose proof (unit_ev_nn _ lf x U) as E. destruct lf; [rewrite plnorm_log|]; exact E.
Qed.
Lemma pgamma_nan x k th lf : incgamma_spec S -> 0 < eps -> 0 < k -> eps <= th ->
  pgamma (N:=NS) (Fin x) (Fin k) (Fin th) lf <> NaN.
Proof.
  intros.
  assert (U : unit_valued (fun x => pgamma (N:=NS) x (Fin k) (Fin th) false)) by (eapply cdf_like_unit; apply pgamma_like; auto).
  pose proof (unit_ev_nn _ lf x U) as E. destruct lf; [rewrite pgamma_log|]; exact E.
Qed.
Lemma pchisq_nan x n lf : incgamma_spec S -> 0 < eps -> 0 < n ->
  pchisq (N:=NS) (Fin x) (Fin n) lf <> NaN.
Proof.
  intros.
  assert (U : unit_valued (fun x => pchisq (N:=NS) x (Fin n) false)) by (eapply cdf_like_unit; apply pchisq_like; auto).
  pose proof (unit_ev_nn _ lf x U) as E. destruct lf; [rewrite pchisq_log|]; exact E.
Qed.
Lemma pinvgamma_nan x a b lf : incgamma_spec S -> 0 < eps -> 0 < a -> 0 < b <= / eps ->
  pinvgamma (N:=NS) (Fin x) (Fin a) (Fin b) lf <> NaN.
Proof.
  intros.
  assert (U : unit_valued (fun x => pinvgamma (N:=NS) x (Fin a) (Fin b) false)) by (eapply cdf_like_unit; apply pinvgamma_like; auto).
  pose proof (unit_ev_nn _ lf x U) as E. destruct lf; [rewrite pinvgamma_log|]; exact E.
Qed.
Lemma pbeta_nan x a b lf : incbeta_spec S -> 0 < a -> 0 < b ->
  pbeta (N:=NS) (Fin x) (Fin a) (Fin b) lf <> NaN.
Proof.
  intros.
  assert (U : unit_valued (fun x => pbeta (N:=NS) x (Fin a) (Fin b) false)) by (eapply cdf_like_unit; apply pbeta_like; auto).
  pose proof (unit_ev_nn _ lf x U) as E. destruct lf; [rewrite pbeta_log|]; exact E.
Qed.
Lemma pf_nan x d1 d2 lf : incbeta_spec S -> 0 < eps -> eps <= d1 -> eps <= d2 ->
  pf (N:=NS) (Fin x) (Fin d1) (Fin d2) lf <> NaN.
Proof.
  intros.
  assert (U : unit_valued (fun x => pf (N:=NS) x (Fin d1) (Fin d2) false)) by (eapply cdf_like_unit; apply pf_like; auto).
  pose proof (unit_ev_nn _ lf x U) as E. destruct lf; [rewrite pf_log by (left; discriminate)|]; exact E.
Qed.
Lemma pt_nan x n lf : incbeta_spec S -> 0 < eps -> eps <= n ->
  pt (N:=NS) (Fin x) (Fin n) lf <> NaN.
Proof.
  intros.
  assert (U : unit_valued (fun x => pt (N:=NS) x (Fin n) false)) by (eapply cdf_like_unit; apply pt_like; auto).
  pose proof (unit_ev_nn _ lf x U) as E. destruct lf; [rewrite pt_log|]; exact E.
Qed.
Lemma pinvgauss_nan x mu l lf : erf_spec S -> 0 < mu -> 0 < l ->
  pinvgauss (N:=NS) (Fin x) (Fin mu) (Fin l) lf <> NaN.
Proof.
  intros.
  assert (U : unit_valued (fun x => pinvgauss (N:=NS) x (Fin mu) (Fin l) false)) by (eapply cdf_like_unit; apply pinvgauss_like; auto).
  pose proof (unit_ev_nn _ lf x U) as E. destruct lf; [rewrite pinvgauss_log|]; exact E.
Qed.
Lemma qexp_nan p r : 0 < r -> 0 <= p <= 1 ->
  qexp (N:=NS) (Fin p) (Fin r) <> NaN.
Proof.
  intros. eapply (ql_nn (fun p => qexp (N:=NS) p (Fin r))); auto. apply qexp_like; auto.
Qed.
Lemma qunif_nan p a b : a < b -> 0 <= p <= 1 ->
  qunif (N:=NS) (Fin p) (Fin a) (Fin b) <> NaN.
Proof.
  intros. eapply (ql_nn (fun p => qunif (N:=NS) p (Fin a) (Fin b))); auto. apply qunif_like; auto.
Qed.
Lemma qlaplace_nan p mu s : 0 < s -> 0 <= p <= 1 ->
  qlaplace (N:=NS) (Fin p) (Fin mu) (Fin s) <> NaN.
Proof.
  intros. eapply (ql_nn (fun p => qlaplace (N:=NS) p (Fin mu) (Fin s))); auto. apply qlaplace_like; auto.
Qed.
Lemma qlogis_nan p mu s : 0 < s -> 0 <= p <= 1 ->
  qlogis (N:=NS) (Fin p) (Fin mu) (Fin s) <> NaN.
Proof.
  intros. eapply (ql_nn (fun p => qlogis (N:=NS) p (Fin mu) (Fin s))); auto. apply qlogis_like; auto.
Qed.
Lemma qcauchy_nan p mu s : 0 < s -> 0 <= p <= 1 ->
  qcauchy (N:=NS) (Fin p) (Fin mu) (Fin s) <> NaN.
Proof.
  intros. eapply (ql_nn (fun p => qcauchy (N:=NS) p (Fin mu) (Fin s))); auto. apply qcauchy_like; auto.
Qed.
Lemma qweibull_nan p k th : 0 < eps -> eps <= k -> eps <= th -> 0 <= p <= 1 ->
  qweibull (N:=NS) (Fin p) (Fin k) (Fin th) <> NaN.
Proof.
  intros. eapply (ql_nn (fun p => qweibull (N:=NS) p (Fin k) (Fin th))); auto. apply qweibull_like; auto.
Qed.
Lemma qnorm_nan p mu s : erf_inv_spec S -> 0 < s -> 0 <= p <= 1 ->
  qnorm (N:=NS) (Fin p) (Fin mu) (Fin s) <> NaN.
Proof.
  intros. eapply (ql_nn (fun p => qnorm (N:=NS) p (Fin mu) (Fin s))); auto. apply qnorm_like; auto.
Qed.
Lemma qlnorm_nan p mu s : erf_inv_spec S -> 0 < s -> 0 <= p <= 1 ->
  qlnorm (N:=NS) (Fin p) (Fin mu) (Fin s) <> NaN.
Proof.
  intros. eapply (ql_nn (fun p => qlnorm (N:=NS) p (Fin mu) (Fin s))); auto. apply qlnorm_like; auto.
Qed.
Lemma qgamma_nan p k th : incgamma_inv_spec S -> 0 < eps -> 0 < k -> eps <= th -> 0 <= p <= 1 ->
  qgamma (N:=NS) (Fin p) (Fin k) (Fin th) <> NaN.
Proof.
  intros. eapply (ql_nn (fun p => qgamma (N:=NS) p (Fin k) (Fin th))); auto. apply qgamma_like; auto.
Qed.
Lemma qchisq_nan p n : incgamma_inv_spec S -> 0 < n -> 0 <= p <= 1 ->
  qchisq (N:=NS) (Fin p) (Fin n) <> NaN.
Proof.
  intros. eapply (ql_nn (fun p => qchisq (N:=NS) p (Fin n))); auto. apply qchisq_like; auto.
Qed.
Lemma qinvgamma_nan p a b : incgamma_inv_spec S -> 0 < a -> 0 < b -> 0 <= p <= 1 ->
  qinvgamma (N:=NS) (Fin p) (Fin a) (Fin b) <> NaN.
Proof.
  intros. eapply (ql_nn (fun p => qinvgamma (N:=NS) p (Fin a) (Fin b))); auto. apply qinvgamma_like; auto.
Qed.
Lemma qbeta_nan p a b : incbeta_inv_spec S -> 0 < a -> 0 < b -> 0 <= p <= 1 ->
  qbeta (N:=NS) (Fin p) (Fin a) (Fin b) <> NaN.
Proof.
  intros. eapply (ql_nn (fun p => qbeta (N:=NS) p (Fin a) (Fin b))); auto. apply qbeta_like; auto.
Qed.
Lemma qf_nan p d1 d2 : incbeta_inv_spec S -> 0 < eps -> eps <= d1 -> eps <= d2 -> 0 <= p <= 1 ->
  qf (N:=NS) (Fin p) (Fin d1) (Fin d2) <> NaN.
Proof.
  intros. eapply (ql_nn (fun p => qf (N:=NS) p (Fin d1) (Fin d2))); auto. apply qf_like; auto.
Qed.
Lemma qinvgauss_nan p mu l : erf_spec S -> 0 < mu -> 0 < l -> 0 <= p <= 1 ->
  qinvgauss (N:=NS) (Fin p) (Fin mu) (Fin l) <> NaN.
Proof.
  intros HE Hm Hl Hp. destruct (qinvgauss_01 S mu l Hm Hl) as (E0 & E1).
  destruct (Req_EM_T p 0) as [->|]; [rewrite E0; discriminate|].
  destruct (Req_EM_T p 1) as [->|]; [rewrite E1; discriminate|].
  destruct (qinvgauss_val S p mu l) as (q & s & -> & _); auto; [lra|discriminate].
Qed.
Lemma dbern_nan x p lf : 0 <= p <= 1 -> dbern (N:=NS) x (Fin p) lf <> NaN.
Proof. intros. rewrite dbern_val by auto. apply val_nn. unfold bern_pmf. destruct Z.eqb; [|destruct Z.eqb]; lra. Qed.
Lemma dradem_nan x p lf : 0 <= p <= 1 -> dradem (N:=NS) x (Fin p) lf <> NaN.
Proof. intros. rewrite dradem_val by auto. apply val_nn. unfold radem_pmf. destruct Z.eqb; [|destruct Z.eqb]; lra. Qed.
Lemma dbinom_nan x n p lf : (0 <= n)%Z -> 0 <= p <= 1 -> dbinom (N:=NS) x n (Fin p) lf <> NaN.
Proof.
  intros Hn Hp. destruct (Z.ltb_spec x 0).
  - rewrite dbinom_out by auto. apply zero_nn.
  - rewrite <- (Z2Nat.id x), <- (Z2Nat.id n) by auto. rewrite dbinom_val_lf by auto.
    apply val_nn. now apply binom_pmf_nonneg.
Qed.
Lemma dpois_nan x r lf : lgamma_spec S -> 0 <= r -> dpois (N:=NS) x (Fin r) lf <> NaN.
Proof.
  intros HL Hr. destruct (Z.ltb_spec x 0).
  - rewrite dpois_out by auto. apply zero_nn.
  - rewrite <- (Z2Nat.id x) by auto. rewrite dpois_val by (auto; now apply lgamma_int).
    apply val_nn. now apply pois_pmf_nonneg.
Qed.
Lemma uz_ev F lf x : unit_valued_Z F -> ev lf (F x) <> NaN.
Proof.
  intros H. destruct (H x) as (r & -> & Hr). destruct lf; [apply (val_nn true); lra|discriminate].
Qed.
Lemma pbern_nan x p lf : 0 <= p <= 1 -> pbern (N:=NS) x (Fin p) lf <> NaN.
Proof. intros H. pose proof (uz_ev _ lf x (pbern_unit S p H)). destruct lf; [rewrite pbern_log|]; auto. Qed.
Lemma pradem_nan x p lf : 0 <= p <= 1 -> pradem (N:=NS) x (Fin p) lf <> NaN.
Proof. intros H. pose proof (uz_ev _ lf x (pradem_unit S p H)). destruct lf; [rewrite pradem_log|]; auto. Qed.
Lemma pbinom_nan x n p lf : (0 <= n)%Z -> 0 <= p <= 1 -> pbinom (N:=NS) x n (Fin p) lf <> NaN.
Proof. intros Hn H. pose proof (uz_ev _ lf x (pbinom_unit S n p Hn H)). destruct lf; [rewrite pbinom_log|]; auto. Qed.
Lemma ppois_nan x r lf : incgamma_spec S -> 0 <= r -> ppois (N:=NS) x (Fin r) lf <> NaN.
Proof. intros Hn H. pose proof (uz_ev _ lf x (ppois_unit S r Hn H)). destruct lf; [rewrite ppois_log|]; auto. Qed.
Lemma qbern_nan p pr : 0 <= p <= 1 -> 0 <= pr <= 1 -> qbern (N:=NS) (Fin p) (Fin pr) <> NaN.
Proof. intros. destruct (qbern_quantile S p pr) as (k & -> & _); auto. discriminate. Qed.
Lemma qradem_nan p pr : 0 <= p <= 1 -> 0 <= pr <= 1 -> qradem (N:=NS) (Fin p) (Fin pr) <> NaN.
Proof. intros. destruct (qradem_quantile S p pr) as (k & -> & _); auto. discriminate. Qed.
Lemma qbinom_nan p n pr : (0 <= n)%Z -> 0 <= p <= 1 -> 0 <= pr <= 1 -> qbinom (N:=NS) (Fin p) n (Fin pr) <> NaN.
Proof.
  intros Hn Hp Hpr. rewrite <- (Z2Nat.id n) by auto.
  destruct (Req_EM_T p 0) as [->|]; [rewrite qbinom_zero by auto; discriminate|].
  destruct (Req_EM_T p 1) as [->|]; [rewrite qbinom_one by auto; discriminate|].
  destruct (qbinom_quantile S (Z.to_nat n) p pr) as (k & -> & _); auto; [lra|discriminate].
Qed.
Lemma qpois_search_nan fuel p r v c res : qpois_search (N:=NS) fuel p r v c = Some res -> res <> NaN.
Proof.
  revert v c. induction fuel as [|f IH]; cbn [qpois_search]; intros v c H; [discriminate|].
  destruct (leb (Num:=NS) v p); [eauto|]. destruct (0 <? c)%Z; injection H as <-; discriminate.
Qed.
Lemma qpois_nan tr fuel p r res : 0 <= p <= 1 -> 0 <= r ->
  qpois_run (N:=NS) tr fuel (Fin p) (Fin r) = Some res -> res <> NaN.
Proof.
  intros Hp Hr. unfold qpois_run, pois_sanity, prob_val_check.
  un_cls. refold S. er_arith. rdecide.
  repeat match goal with |- context [if ?b then _ else _] => destruct b eqn:? end;
    try (intros [= <-]; discriminate); try (destruct (tr _)); intros H; try discriminate;
    eapply qpois_search_nan; eassumption.
Qed.
Lemma qt_1_nan p : incbeta_spec S -> 0 < eps <= 1 -> 0 <= p <= 1 -> qt (N:=NS) (Fin p) (Fin 1) <> NaN.
Proof. intros. eapply (ql_nn (fun p => qt (N:=NS) p (Fin 1))); auto. apply qt_1_like; auto. Qed.
Lemma qt_2_nan p : 0 < eps <= 1 -> 0 <= p <= 1 -> qt (N:=NS) (Fin p) (Fin 2) <> NaN.
Proof. intros. eapply (ql_nn (fun p => qt (N:=NS) p (Fin 2))); auto. apply qt_2_like; auto. Qed.
End S.

Lemma dweibull_nan_refuted : exists (S : SF) th lf, 0 < sf_eps S /\ sf_eps S <= 1 /\ sf_eps S <= th /\
  dweibull (N:=ER_Num S) (Fin 0) (Fin 1) (Fin th) lf = NaN.
Proof. exists SFR, 2, false. repeat split; try ex_sf. apply dweibull_at0_1; ex_sf. Qed.
Lemma dweibull_at0_refuted : exists (S : SF) th lf v, 0 < sf_eps S /\ sf_eps S <= 1 /\ sf_eps S <= th /\
  limit_right (weibull_pdf 1 th) 0 v /\ dweibull (N:=ER_Num S) (Fin 0) (Fin 1) (Fin th) lf <> ev lf v.
Proof.
  exists SFR, 2, false, (Fin (1 / 2)). repeat split; try ex_sf.
  - apply (dweibull_at0_1 SFR 2 false); ex_sf.
  - rewrite (proj1 (dweibull_at0_1 SFR 2 false ltac:(ex_sf) ltac:(ex_sf))). discriminate.
Qed.
Lemma pweibull_val_refuted : exists (S : SF) k th x, 0 < sf_eps S /\ sf_eps S <= k /\ sf_eps S <= th /\ 0 < x /\
  pweibull (N:=ER_Num S) (Fin x) (Fin k) (Fin th) false <> Fin (weibull_cdf k th x).
Proof.
  exists SFR, 1, 1, (sf_eps SFR / 2). repeat split; try ex_sf. rewrite pweibull_low by ex_sf. unfold val.
  pose proof (weibull_cdf_range 1 1 (sf_eps SFR / 2)) as R. revert R. generalize (weibull_cdf 1 1 (sf_eps SFR / 2)).
  intros w R E. injection E as E. lra.
Qed.
Lemma plnorm_val_refuted : exists (S : SF) mu s x, 0 < sf_eps S /\ 0 < s /\ 0 < x /\
  plnorm (N:=ER_Num S) (Fin x) (Fin mu) (Fin s) false <> Fin (lnorm_cdf mu s x).
Proof.
  exists SFR, 0, 1, (sf_eps SFR / 2). repeat split; try ex_sf. rewrite plnorm_low by ex_sf. unfold val, lnorm_cdf.
  pose proof (norm_cdf_range 0 1 (ln (sf_eps SFR / 2))) as R. revert R. generalize (norm_cdf 0 1 (ln (sf_eps SFR / 2))).
  intros w R E. injection E as E. lra.
Qed.
Lemma gamma_density_refuted : exists (S : SF) k th x, lgamma_spec S /\ incgamma_spec S /\ 0 < sf_eps S /\ 0 < k /\
  sf_eps S <= th /\ 0 < x /\ ~ density_of (fun y => pgamma (N:=ER_Num S) y (Fin k) (Fin th) false)
    (fun y => dgamma (N:=ER_Num S) y (Fin k) (Fin th) false) x.
Proof. exists SFR, 1, 1, (sf_eps SFR / 2). repeat split; try ex_sf. apply pgamma_density_bad; ex_sf. Qed.
Lemma qbinom_1_refuted : exists S : SF,
  qbinom (N:=ER_Num S) (Fin 1) 1 (Fin 0) <> qbern (N:=ER_Num S) (Fin 1) (Fin 0).
Proof. exists SFR. destruct (qbinom_1_bern_bad SFR) as (-> & ->). intros [= E]. lra. Qed.
