(** Range and monotonicity of the CDFs with real arguments. *)
From Coq Require Import Reals ZArith QArith Bool Lra Lia.
From Verif Require Import Num Sanity ER ERTac Prob Dens Quant Spec SpecER ClosedElem RealElem
  LogForm Support Elem Norm NormR SpecSF FamR FamG FamB.
Local Open Scope R_scope.
Section S.
Variable S : SF.
Notation NS := (ER_Num S).
Notation eps := (sf_eps S).
Lemma pexp_unit r : 0 < r ->
  unit_valued (fun x => pexp (N:=NS) x (Fin r) false).
Proof.
  intros. eapply cdf_like_unit. apply pexp_like; auto.
Qed.
Lemma pexp_mono r : 0 < r ->
  monotone (fun x => pexp (N:=NS) x (Fin r) false).
Proof.
  intros. eapply cdf_like_mono. apply pexp_like; auto.
Qed.
Lemma punif_unit a b : a < b ->
  unit_valued (fun x => punif (N:=NS) x (Fin a) (Fin b) false).
Proof.
  intros. eapply cdf_like_unit. apply punif_like; auto.
Qed.
Lemma punif_mono a b : a < b ->
  monotone (fun x => punif (N:=NS) x (Fin a) (Fin b) false).
Proof.
  intros. eapply cdf_like_mono. apply punif_like; auto.
Qed.
Lemma plaplace_unit mu s : 0 < s ->
  unit_valued (fun x => plaplace (N:=NS) x (Fin mu) (Fin s) false).
Proof.
  intros. eapply cdf_like_unit. apply plaplace_like; auto.
Qed.
Lemma plaplace_mono mu s : 0 < s ->
  monotone (fun x => plaplace (N:=NS) x (Fin mu) (Fin s) false).
Proof.
  intros. eapply cdf_like_mono. apply plaplace_like; auto.
Qed.
Lemma plogis_unit mu s : 0 < s ->
  unit_valued (fun x => plogis (N:=NS) x (Fin mu) (Fin s) false).
Proof.
  intros. eapply cdf_like_unit. apply plogis_like; auto.
Qed.
Lemma plogis_mono mu s : 0 < s ->
  monotone (fun x => plogis (N:=NS) x (Fin mu) (Fin s) false).
Proof.
  intros. eapply cdf_like_mono. apply plogis_like; auto.
Qed.
Lemma pcauchy_unit mu s : 0 < s ->
  unit_valued (fun x => pcauchy (N:=NS) x (Fin mu) (Fin s) false).
Proof.
  intros. eapply cdf_like_unit. apply pcauchy_like; auto.
Qed.
Lemma pcauchy_mono mu s : 0 < s ->
  monotone (fun x => pcauchy (N:=NS) x (Fin mu) (Fin s) false).
Proof.
  intros. eapply cdf_like_mono. apply pcauchy_like; auto.
Qed.
Lemma pweibull_unit k th : 0 < eps -> eps <= k -> eps <= th ->
  unit_valued (fun x => pweibull (N:=NS) x (Fin k) (Fin th) false).
Proof.
  intros. eapply cdf_like_unit. apply pweibull_like; auto.
Qed.
Lemma pweibull_mono k th : 0 < eps -> eps <= k -> eps <= th ->
  monotone (fun x => pweibull (N:=NS) x (Fin k) (Fin th) false).
Proof.
  intros. eapply cdf_like_mono. apply pweibull_like; auto.
Qed.
Lemma pnorm_unit mu s : erf_spec S -> 0 < s ->
  unit_valued (fun x => pnorm (N:=NS) x (Fin mu) (Fin s) false).
Proof.
  intros. eapply cdf_like_unit. apply pnorm_like; auto.
Qed.
Lemma pnorm_mono mu s : erf_spec S -> 0 < s ->
  monotone (fun x => pnorm (N:=NS) x (Fin mu) (Fin s) false).
Proof.
  intros. eapply cdf_like_mono. apply pnorm_like; auto.
Qed.
Lemma plnorm_unit mu s : erf_spec S -> 0 < eps -> 0 < s ->
  unit_valued (fun x => plnorm (N:=NS) x (Fin mu) (Fin s) false).
Proof.
  intros. eapply cdf_like_unit. apply plnorm_like; auto.
Qed.
Lemma plnorm_mono mu s : erf_spec S -> 0 < eps -> 0 < s ->
  monotone (fun x => plnorm (N:=NS) x (Fin mu) (Fin s) false).
Proof.
  intros. eapply cdf_like_mono. apply plnorm_like; auto.
Qed.
Lemma pgamma_unit k th : incgamma_spec S -> 0 < eps -> 0 < k -> eps <= th ->
  unit_valued (fun x => pgamma (N:=NS) x (Fin k) (Fin th) false).
Proof.
  intros. eapply cdf_like_unit. apply pgamma_like; auto.
Qed.
Lemma pgamma_mono k th : incgamma_spec S -> 0 < eps -> 0 < k -> eps <= th ->
  monotone (fun x => pgamma (N:=NS) x (Fin k) (Fin th) false).
Proof.
  intros. eapply cdf_like_mono. apply pgamma_like; auto.
Qed.
Lemma pchisq_unit n : incgamma_spec S -> 0 < eps -> 0 < n ->
  unit_valued (fun x => pchisq (N:=NS) x (Fin n) false).
Proof.
  intros. eapply cdf_like_unit. apply pchisq_like; auto.
Qed.
Lemma pchisq_mono n : incgamma_spec S -> 0 < eps -> 0 < n ->
  monotone (fun x => pchisq (N:=NS) x (Fin n) false).
Proof.
  intros. eapply cdf_like_mono. apply pchisq_like; auto.
Qed.
Lemma pinvgamma_unit a b : incgamma_spec S -> 0 < eps -> 0 < a -> 0 < b <= / eps ->
  unit_valued (fun x => pinvgamma (N:=NS) x (Fin a) (Fin b) false).
Proof.
  intros. eapply cdf_like_unit. apply pinvgamma_like; auto.
Qed.
Lemma pinvgamma_mono a b : incgamma_spec S -> 0 < eps -> 0 < a -> 0 < b <= / eps ->
  monotone (fun x => pinvgamma (N:=NS) x (Fin a) (Fin b) false).
Proof.
  intros. eapply cdf_like_mono. apply pinvgamma_like; auto.
Qed.
Lemma pbeta_unitv a b : incbeta_spec S -> 0 < a -> 0 < b ->
  unit_valued (fun x => pbeta (N:=NS) x (Fin a) (Fin b) false).
Proof.
  intros. eapply cdf_like_unit. apply pbeta_like; auto.
Qed.
Lemma pbeta_mono a b : incbeta_spec S -> 0 < a -> 0 < b ->
  monotone (fun x => pbeta (N:=NS) x (Fin a) (Fin b) false).
Proof.
  intros. eapply cdf_like_mono. apply pbeta_like; auto.
Qed.
Lemma pf_unit d1 d2 : incbeta_spec S -> 0 < eps -> eps <= d1 -> eps <= d2 ->
  unit_valued (fun x => pf (N:=NS) x (Fin d1) (Fin d2) false).
Proof.
  intros. eapply cdf_like_unit. apply pf_like; auto.
Qed.
Lemma pf_mono d1 d2 : incbeta_spec S -> 0 < eps -> eps <= d1 -> eps <= d2 ->
  monotone (fun x => pf (N:=NS) x (Fin d1) (Fin d2) false).
Proof.
  intros. eapply cdf_like_mono. apply pf_like; auto.
Qed.
Lemma pt_unit n : incbeta_spec S -> 0 < eps -> eps <= n ->
  unit_valued (fun x => pt (N:=NS) x (Fin n) false).
Proof.
  intros. eapply cdf_like_unit. apply pt_like; auto.
Qed.
Lemma pt_mono n : incbeta_spec S -> 0 < eps -> eps <= n ->
  monotone (fun x => pt (N:=NS) x (Fin n) false).
Proof.
  intros. eapply cdf_like_mono. apply pt_like; auto.
Qed.
Lemma pinvgauss_unit mu l : erf_spec S -> 0 < mu -> 0 < l ->
  unit_valued (fun x => pinvgauss (N:=NS) x (Fin mu) (Fin l) false).
Proof.
  intros. eapply cdf_like_unit. apply pinvgauss_like; auto.
Qed.
Lemma pinvgauss_mono mu l : erf_spec S -> 0 < mu -> 0 < l ->
  monotone (fun x => pinvgauss (N:=NS) x (Fin mu) (Fin l) false).
Proof.
  intros. eapply cdf_like_mono. apply pinvgauss_like; auto.
Qed.
End S.
