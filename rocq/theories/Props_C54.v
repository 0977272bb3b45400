(** C54: boundary parameters give the limits of the values at finite parameters. *)
From Coq Require Import ZArith QArith Reals Lra Lia.
From Verif Require Import Num ER Prob Dens Spec SpecSF Norm FamG FamB Discrete Mono Witness WitnessSF
  SpecLim LimE LimE2 LimE3 LimE4.
Local Open Scope R_scope.


(** [extends d f]: f at the bound of its parameter (+inf, -inf or 0) is the limit of f at finite
    parameters approaching that bound (SpecLim.v). *)

Theorem C54_pnorm_loc : forall (S : SF), erf_spec S -> loc_limits (fun x m s => pnorm (N:=ER_Num S) x m s false).
Proof. exact pnorm_loc. Qed.
Print Assumptions C54_pnorm_loc.
Example C54_pnorm_loc_ex : extends Down (fun m => pnorm (N:=ER_Num SFR) (Fin 3) m (Fin 2) false) /\ extends Up (fun m => pnorm (N:=ER_Num SFR) (Fin 3) m (Fin 2) false) /\ extends Up (fun s => pnorm (N:=ER_Num SFR) (Fin 3) (Fin 7) s false).
Proof. apply (C54_pnorm_loc SFR SFR_erf 3 7 2); lra. Qed.

Theorem C54_plaplace_loc : forall (S : SF), loc_limits (fun x m s => plaplace (N:=ER_Num S) x m s false).
Proof. exact plaplace_loc. Qed.
Print Assumptions C54_plaplace_loc.
Example C54_plaplace_loc_ex : extends Down (fun m => plaplace (N:=ER_Num SFR) (Fin 3) m (Fin 2) false) /\ extends Up (fun m => plaplace (N:=ER_Num SFR) (Fin 3) m (Fin 2) false) /\ extends Up (fun s => plaplace (N:=ER_Num SFR) (Fin 3) (Fin 7) s false).
Proof. apply (C54_plaplace_loc SFR 3 7 2); lra. Qed.

Theorem C54_plogis_loc : forall (S : SF), loc_limits (fun x m s => plogis (N:=ER_Num S) x m s false).
Proof. exact plogis_loc. Qed.
Print Assumptions C54_plogis_loc.
Example C54_plogis_loc_ex : extends Down (fun m => plogis (N:=ER_Num SFR) (Fin 3) m (Fin 2) false) /\ extends Up (fun m => plogis (N:=ER_Num SFR) (Fin 3) m (Fin 2) false) /\ extends Up (fun s => plogis (N:=ER_Num SFR) (Fin 3) (Fin 7) s false).
Proof. apply (C54_plogis_loc SFR 3 7 2); lra. Qed.

Theorem C54_pcauchy_loc : forall (S : SF), loc_limits (fun x m s => pcauchy (N:=ER_Num S) x m s false).
Proof. exact pcauchy_loc. Qed.
Print Assumptions C54_pcauchy_loc.
Example C54_pcauchy_loc_ex : extends Down (fun m => pcauchy (N:=ER_Num SFR) (Fin 3) m (Fin 2) false) /\ extends Up (fun m => pcauchy (N:=ER_Num SFR) (Fin 3) m (Fin 2) false) /\ extends Up (fun s => pcauchy (N:=ER_Num SFR) (Fin 3) (Fin 7) s false).
Proof. apply (C54_pcauchy_loc SFR 3 7 2); lra. Qed.

Theorem C54_dnorm_loc : forall (S : SF), loc_limits (fun x m s => dnorm (N:=ER_Num S) x m s false).
Proof. exact dnorm_loc. Qed.
Print Assumptions C54_dnorm_loc.
Example C54_dnorm_loc_ex : extends Down (fun m => dnorm (N:=ER_Num SFR) (Fin 3) m (Fin 2) false) /\ extends Up (fun m => dnorm (N:=ER_Num SFR) (Fin 3) m (Fin 2) false) /\ extends Up (fun s => dnorm (N:=ER_Num SFR) (Fin 3) (Fin 7) s false).
Proof. apply (C54_dnorm_loc SFR 3 7 2); lra. Qed.

Theorem C54_dlaplace_loc : forall (S : SF), loc_limits (fun x m s => dlaplace (N:=ER_Num S) x m s false).
Proof. exact dlaplace_loc. Qed.
Print Assumptions C54_dlaplace_loc.
Example C54_dlaplace_loc_ex : extends Down (fun m => dlaplace (N:=ER_Num SFR) (Fin 3) m (Fin 2) false) /\ extends Up (fun m => dlaplace (N:=ER_Num SFR) (Fin 3) m (Fin 2) false) /\ extends Up (fun s => dlaplace (N:=ER_Num SFR) (Fin 3) (Fin 7) s false).
Proof. apply (C54_dlaplace_loc SFR 3 7 2); lra. Qed.

Theorem C54_dlogis_loc : forall (S : SF), loc_limits (fun x m s => dlogis (N:=ER_Num S) x m s false).
Proof. exact dlogis_loc. Qed.
Print Assumptions C54_dlogis_loc.
Example C54_dlogis_loc_ex : extends Down (fun m => dlogis (N:=ER_Num SFR) (Fin 3) m (Fin 2) false) /\ extends Up (fun m => dlogis (N:=ER_Num SFR) (Fin 3) m (Fin 2) false) /\ extends Up (fun s => dlogis (N:=ER_Num SFR) (Fin 3) (Fin 7) s false).
Proof. apply (C54_dlogis_loc SFR 3 7 2); lra. Qed.

Theorem C54_dcauchy_loc : forall (S : SF), loc_limits (fun x m s => dcauchy (N:=ER_Num S) x m s false).
Proof. exact dcauchy_loc. Qed.
Print Assumptions C54_dcauchy_loc.
Example C54_dcauchy_loc_ex : extends Down (fun m => dcauchy (N:=ER_Num SFR) (Fin 3) m (Fin 2) false) /\ extends Up (fun m => dcauchy (N:=ER_Num SFR) (Fin 3) m (Fin 2) false) /\ extends Up (fun s => dcauchy (N:=ER_Num SFR) (Fin 3) (Fin 7) s false).
Proof. apply (C54_dcauchy_loc SFR 3 7 2); lra. Qed.

Theorem C54_pnorm_scale : forall (S : SF) (x m : R), erf_spec S -> x <> m -> extends Zero (fun s => pnorm (N:=ER_Num S) (Fin x) (Fin m) s false).
Proof. exact pnorm_scale. Qed.
Print Assumptions C54_pnorm_scale.
Example C54_pnorm_scale_ex : extends Zero (fun s => pnorm (N:=ER_Num SFR) (Fin 3) (Fin 7) s false).
Proof. apply (C54_pnorm_scale SFR 3 7); [exact SFR_erf|lra]. Qed.

Theorem C54_plaplace_scale : forall (S : SF) (x m : R), extends Zero (fun s => plaplace (N:=ER_Num S) (Fin x) (Fin m) s false).
Proof. exact plaplace_scale. Qed.
Print Assumptions C54_plaplace_scale.
Example C54_plaplace_scale_ex : extends Zero (fun s => plaplace (N:=ER_Num SFR) (Fin 3) (Fin 7) s false).
Proof. exact (C54_plaplace_scale SFR 3 7). Qed.

Theorem C54_plogis_scale : forall (S : SF) (x m : R), extends Zero (fun s => plogis (N:=ER_Num S) (Fin x) (Fin m) s false).
Proof. exact plogis_scale. Qed.
Print Assumptions C54_plogis_scale.
Example C54_plogis_scale_ex : extends Zero (fun s => plogis (N:=ER_Num SFR) (Fin 3) (Fin 7) s false).
Proof. exact (C54_plogis_scale SFR 3 7). Qed.

Theorem C54_pcauchy_scale : forall (S : SF) (x m : R), x <> m -> extends Zero (fun s => pcauchy (N:=ER_Num S) (Fin x) (Fin m) s false).
Proof. exact pcauchy_scale. Qed.
Print Assumptions C54_pcauchy_scale.
Example C54_pcauchy_scale_ex : extends Zero (fun s => pcauchy (N:=ER_Num SFR) (Fin 3) (Fin 7) s false).
Proof. apply (C54_pcauchy_scale SFR 3 7); lra. Qed.

Theorem C54_dnorm_scale : forall (S : SF) (x m : R), extends Zero (fun s => dnorm (N:=ER_Num S) (Fin x) (Fin m) s false).
Proof. exact dnorm_scale. Qed.
Print Assumptions C54_dnorm_scale.
Example C54_dnorm_scale_ex : extends Zero (fun s => dnorm (N:=ER_Num SFR) (Fin 3) (Fin 7) s false).
Proof. exact (C54_dnorm_scale SFR 3 7). Qed.

Theorem C54_dlaplace_scale : forall (S : SF) (x m : R), extends Zero (fun s => dlaplace (N:=ER_Num S) (Fin x) (Fin m) s false).
Proof. exact dlaplace_scale. Qed.
Print Assumptions C54_dlaplace_scale.
Example C54_dlaplace_scale_ex : extends Zero (fun s => dlaplace (N:=ER_Num SFR) (Fin 3) (Fin 7) s false).
Proof. exact (C54_dlaplace_scale SFR 3 7). Qed.

Theorem C54_plnorm : forall (S : SF) (x m s : R), erf_spec S -> sf_eps S <= x -> 0 < x -> 0 < s ->
  extends Down (fun m => plnorm (N:=ER_Num S) (Fin x) m (Fin s) false) /\
  extends Up (fun m => plnorm (N:=ER_Num S) (Fin x) m (Fin s) false) /\
  extends Up (fun s => plnorm (N:=ER_Num S) (Fin x) (Fin m) s false) /\
  (ln x <> m -> extends Zero (fun s => plnorm (N:=ER_Num S) (Fin x) (Fin m) s false)).
Proof. exact plnorm_loc. Qed.
Print Assumptions C54_plnorm.
Example C54_plnorm_ex : extends Down (fun m => plnorm (N:=ER_Num SFR) (Fin 3) m (Fin 2) false).
Proof. apply (C54_plnorm SFR 3 7 2); ex_sf. Qed.

Theorem C54_dlnorm : forall (S : SF) (x m s : R), 0 < x -> 0 < s ->
  extends Down (fun m => dlnorm (N:=ER_Num S) (Fin x) m (Fin s) false) /\
  extends Up (fun m => dlnorm (N:=ER_Num S) (Fin x) m (Fin s) false) /\
  extends Up (fun s => dlnorm (N:=ER_Num S) (Fin x) (Fin m) s false) /\
  (m <> ln x -> extends Zero (fun s => dlnorm (N:=ER_Num S) (Fin x) (Fin m) s false)).
Proof. exact dlnorm_loc. Qed.
Print Assumptions C54_dlnorm.
Example C54_dlnorm_ex : extends Up (fun s => dlnorm (N:=ER_Num SFR) (Fin 3) (Fin 7) s false).
Proof. apply (C54_dlnorm SFR 3 7 2); lra. Qed.

Theorem C54_pexp : forall (S : SF) (x : R), 0 < x -> extends Zero (fun r => pexp (N:=ER_Num S) (Fin x) r false) /\ extends Up (fun r => pexp (N:=ER_Num S) (Fin x) r false).
Proof. exact pexp_rate. Qed.
Print Assumptions C54_pexp.
Example C54_pexp_ex : extends Zero (fun r => pexp (N:=ER_Num SFR) (Fin 3) r false) /\ extends Up (fun r => pexp (N:=ER_Num SFR) (Fin 3) r false).
Proof. apply (C54_pexp SFR 3); ex_sf. Qed.

Theorem C54_dexp : forall (S : SF) (x : R), 0 <= x -> extends Zero (fun r => dexp (N:=ER_Num S) (Fin x) r false).
Proof. exact dexp_rate. Qed.
Print Assumptions C54_dexp.
Example C54_dexp_ex : extends Zero (fun r => dexp (N:=ER_Num SFR) (Fin 3) r false).
Proof. apply (C54_dexp SFR 3); ex_sf. Qed.

Theorem C54_dexp_refuted : forall (S : SF) (x : R), 0 < x -> ~ extends Up (fun r => dexp (N:=ER_Num S) (Fin x) r false).
Proof. exact dexp_rate_inf. Qed.
Print Assumptions C54_dexp_refuted.
Example C54_dexp_refuted_ex : ~ extends Up (fun r => dexp (N:=ER_Num SFR) (Fin 3) r false).
Proof. apply (C54_dexp_refuted SFR 3); ex_sf. Qed.

Theorem C54_dunif : forall (S : SF) (x a b : R), a <= x <= b -> extends Up (fun b => dunif (N:=ER_Num S) (Fin x) (Fin a) b false) /\
  extends Down (fun a => dunif (N:=ER_Num S) (Fin x) a (Fin b) false).
Proof. exact dunif_ab. Qed.
Print Assumptions C54_dunif.
Example C54_dunif_ex : extends Up (fun b => dunif (N:=ER_Num SFR) (Fin 3) (Fin 2) b false).
Proof. apply (C54_dunif SFR 3 2 7); ex_sf. Qed.

Theorem C54_punif : forall (S : SF) (x a : R), extends Up (fun b => punif (N:=ER_Num S) (Fin x) (Fin a) b false).
Proof. exact punif_b. Qed.
Print Assumptions C54_punif.
Example C54_punif_ex : extends Up (fun b => punif (N:=ER_Num SFR) (Fin 3) (Fin 2) b false).
Proof. exact (C54_punif SFR 3 2). Qed.

Theorem C54_punif_refuted : forall (S : SF) (x b : R), x < b -> ~ extends Down (fun a => punif (N:=ER_Num S) (Fin x) a (Fin b) false).
Proof. exact punif_a_ref. Qed.
Print Assumptions C54_punif_refuted.
Example C54_punif_refuted_ex : ~ extends Down (fun a => punif (N:=ER_Num SFR) (Fin 3) a (Fin 7) false).
Proof. apply (C54_punif_refuted SFR 3 7); ex_sf. Qed.

Theorem C54_pweibull_shape : forall (S : SF) (x th : R), 0 < sf_eps S -> sf_eps S <= x -> sf_eps S <= th -> extends Up (fun k => pweibull (N:=ER_Num S) (Fin x) k (Fin th) false).
Proof. exact pweibull_shape. Qed.
Print Assumptions C54_pweibull_shape.
Example C54_pweibull_shape_ex : extends Up (fun k => pweibull (N:=ER_Num SFR) (Fin 3) k (Fin 2) false).
Proof. apply (C54_pweibull_shape SFR 3 2); ex_sf. Qed.

Theorem C54_pweibull_scale : forall (S : SF) (x k : R), 0 < sf_eps S -> sf_eps S <= x -> sf_eps S <= k -> extends Up (fun th => pweibull (N:=ER_Num S) (Fin x) (Fin k) th false).
Proof. exact pweibull_scale. Qed.
Print Assumptions C54_pweibull_scale.
Example C54_pweibull_scale_ex : extends Up (fun th => pweibull (N:=ER_Num SFR) (Fin 3) (Fin 2) th false).
Proof. apply (C54_pweibull_scale SFR 3 2); ex_sf. Qed.

Theorem C54_dweibull_scale : forall (S : SF) (x k : R), 0 < sf_eps S -> 0 < x -> sf_eps S <= k -> 1 < k -> extends Up (fun th => dweibull (N:=ER_Num S) (Fin x) (Fin k) th false).
Proof. exact dweibull_scale. Qed.
Print Assumptions C54_dweibull_scale.
Example C54_dweibull_scale_ex : extends Up (fun th => dweibull (N:=ER_Num SFR) (Fin 3) (Fin 2) th false).
Proof. apply (C54_dweibull_scale SFR 3 2); ex_sf. Qed.

Theorem C54_dweibull_refuted : forall (S : SF) (x k : R), 0 < sf_eps S -> 0 < x -> sf_eps S <= k -> k <= 1 -> ~ extends Up (fun th => dweibull (N:=ER_Num S) (Fin x) (Fin k) th false).
Proof. exact dweibull_scale_ref. Qed.
Print Assumptions C54_dweibull_refuted.
Example C54_dweibull_refuted_ex : ~ extends Up (fun th => dweibull (N:=ER_Num SFR) (Fin 3) (Fin (1 / 2)) th false).
Proof. apply (C54_dweibull_refuted SFR 3 (1 / 2)); ex_sf. Qed.

Theorem C54_pgamma_shape : forall (S : SF) (x th : R), incgamma_spec S -> 0 < sf_eps S -> sf_eps S <= x -> sf_eps S <= th ->
  extends Zero (fun k => pgamma (N:=ER_Num S) (Fin x) k (Fin th) false) /\ extends Up (fun k => pgamma (N:=ER_Num S) (Fin x) k (Fin th) false).
Proof. exact pgamma_shape. Qed.
Print Assumptions C54_pgamma_shape.
Example C54_pgamma_shape_ex : extends Zero (fun k => pgamma (N:=ER_Num SFR) (Fin 3) k (Fin 2) false) /\ extends Up (fun k => pgamma (N:=ER_Num SFR) (Fin 3) k (Fin 2) false).
Proof. apply (C54_pgamma_shape SFR 3 2); ex_sf. Qed.

Theorem C54_pgamma_scale : forall (S : SF) (x k : R), incgamma_spec S -> 0 < sf_eps S -> sf_eps S <= x -> 0 < k -> extends Up (fun th => pgamma (N:=ER_Num S) (Fin x) (Fin k) th false).
Proof. exact pgamma_scale. Qed.
Print Assumptions C54_pgamma_scale.
Example C54_pgamma_scale_ex : extends Up (fun th => pgamma (N:=ER_Num SFR) (Fin 3) (Fin 2) th false).
Proof. apply (C54_pgamma_scale SFR 3 2); ex_sf. Qed.

Theorem C54_dgamma_shape : forall (S : SF) (x th : R), lgamma_spec S -> 0 < sf_eps S -> 0 < x -> sf_eps S <= th ->
  extends Zero (fun k => dgamma (N:=ER_Num S) (Fin x) k (Fin th) false) /\ extends Up (fun k => dgamma (N:=ER_Num S) (Fin x) k (Fin th) false).
Proof. exact dgamma_shape. Qed.
Print Assumptions C54_dgamma_shape.
Example C54_dgamma_shape_ex : extends Zero (fun k => dgamma (N:=ER_Num SFR) (Fin 3) k (Fin 2) false) /\ extends Up (fun k => dgamma (N:=ER_Num SFR) (Fin 3) k (Fin 2) false).
Proof. apply (C54_dgamma_shape SFR 3 2); ex_sf. Qed.

Theorem C54_dgamma_scale : forall (S : SF) (x k : R), lgamma_spec S -> 0 < sf_eps S -> 0 < x -> 0 < k -> extends Up (fun th => dgamma (N:=ER_Num S) (Fin x) (Fin k) th false).
Proof. exact dgamma_scale. Qed.
Print Assumptions C54_dgamma_scale.
Example C54_dgamma_scale_ex : extends Up (fun th => dgamma (N:=ER_Num SFR) (Fin 3) (Fin 2) th false).
Proof. apply (C54_dgamma_scale SFR 3 2); ex_sf. Qed.

Theorem C54_pchisq : forall (S : SF) (x : R), incgamma_spec S -> 0 < sf_eps S -> sf_eps S <= x ->
  extends Zero (fun n => pchisq (N:=ER_Num S) (Fin x) n false) /\ extends Up (fun n => pchisq (N:=ER_Num S) (Fin x) n false).
Proof. exact pchisq_dof. Qed.
Print Assumptions C54_pchisq.
Example C54_pchisq_ex : extends Zero (fun n => pchisq (N:=ER_Num SFR) (Fin 3) n false) /\ extends Up (fun n => pchisq (N:=ER_Num SFR) (Fin 3) n false).
Proof. apply (C54_pchisq SFR 3); ex_sf. Qed.

Theorem C54_dchisq : forall (S : SF) (x : R), lgamma_spec S -> 0 < x ->
  (sf_lgamma S (Fin 0) = PInf -> extends Zero (fun n => dchisq (N:=ER_Num S) (Fin x) n false)) /\ extends Up (fun n => dchisq (N:=ER_Num S) (Fin x) n false).
Proof. exact dchisq_dof. Qed.
Print Assumptions C54_dchisq.
Example C54_dchisq_ex : extends Zero (fun n => dchisq (N:=ER_Num SFL) (Fin 3) n false).
Proof. apply (C54_dchisq SFL 3); [exact (proj1 SFL_lgamma)|lra|exact (proj2 SFL_lgamma)]. Qed.

Theorem C54_pinvgamma_shape : forall (S : SF) (x b : R), incgamma_spec S -> 0 < sf_eps S -> 0 < b <= / sf_eps S -> 0 < x <= / sf_eps S ->
  extends Zero (fun a => pinvgamma (N:=ER_Num S) (Fin x) a (Fin b) false) /\ extends Up (fun a => pinvgamma (N:=ER_Num S) (Fin x) a (Fin b) false).
Proof. exact pinvgamma_shape. Qed.
Print Assumptions C54_pinvgamma_shape.
Example C54_pinvgamma_shape_ex : extends Zero (fun a => pinvgamma (N:=ER_Num SFR) (Fin 3) a (Fin 2) false) /\ extends Up (fun a => pinvgamma (N:=ER_Num SFR) (Fin 3) a (Fin 2) false).
Proof. apply (C54_pinvgamma_shape SFR 3 2); try rewrite Rinv_inv; ex_sf. Qed.

Theorem C54_pinvgamma_rate : forall (S : SF) (x a : R), incgamma_spec S -> 0 < sf_eps S -> 0 < a -> 0 < x <= / sf_eps S ->
  extends Zero (fun b => pinvgamma (N:=ER_Num S) (Fin x) (Fin a) b false).
Proof. exact pinvgamma_rate. Qed.
Print Assumptions C54_pinvgamma_rate.
Example C54_pinvgamma_rate_ex : extends Zero (fun b => pinvgamma (N:=ER_Num SFR) (Fin 3) (Fin 2) b false).
Proof. apply (C54_pinvgamma_rate SFR 3 2); ex_sf. Qed.

Theorem C54_dinvgamma_shape : forall (S : SF) (x b : R), lgamma_spec S -> 0 < x -> 0 < b -> extends Up (fun a => dinvgamma (N:=ER_Num S) (Fin x) a (Fin b) false).
Proof. exact dinvgamma_shape_inf. Qed.
Print Assumptions C54_dinvgamma_shape.
Example C54_dinvgamma_shape_ex : extends Up (fun a => dinvgamma (N:=ER_Num SFR) (Fin 3) a (Fin 2) false).
Proof. apply (C54_dinvgamma_shape SFR 3 2); ex_sf. Qed.

Theorem C54_dinvgamma_refuted : forall (S : SF) (x b : R), lgamma_spec S -> 0 < x -> 0 < b -> ~ extends Zero (fun a => dinvgamma (N:=ER_Num S) (Fin x) a (Fin b) false).
Proof. exact dinvgamma_shape_ref. Qed.
Print Assumptions C54_dinvgamma_refuted.
Example C54_dinvgamma_refuted_ex : ~ extends Zero (fun a => dinvgamma (N:=ER_Num SFR) (Fin 3) a (Fin 2) false).
Proof. apply (C54_dinvgamma_refuted SFR 3 2); ex_sf. Qed.

Theorem C54_dinvgamma_rate : forall (S : SF) (x a : R), lgamma_spec S -> 0 < x -> 0 < a ->
  extends Zero (fun b => dinvgamma (N:=ER_Num S) (Fin x) (Fin a) b false) /\ extends Up (fun b => dinvgamma (N:=ER_Num S) (Fin x) (Fin a) b false).
Proof. exact dinvgamma_rate. Qed.
Print Assumptions C54_dinvgamma_rate.
Example C54_dinvgamma_rate_ex : extends Zero (fun b => dinvgamma (N:=ER_Num SFR) (Fin 3) (Fin 2) b false) /\ extends Up (fun b => dinvgamma (N:=ER_Num SFR) (Fin 3) (Fin 2) b false).
Proof. apply (C54_dinvgamma_rate SFR 3 2); ex_sf. Qed.

Theorem C54_pbeta : forall (S : SF) (x a b : R), incbeta_spec S -> 0 < x < 1 -> 0 < a -> 0 < b ->
  extends Zero (fun a => pbeta (N:=ER_Num S) (Fin x) a (Fin b) false) /\ extends Up (fun a => pbeta (N:=ER_Num S) (Fin x) a (Fin b) false) /\
  extends Zero (fun b => pbeta (N:=ER_Num S) (Fin x) (Fin a) b false) /\ extends Up (fun b => pbeta (N:=ER_Num S) (Fin x) (Fin a) b false).
Proof. exact pbeta_params. Qed.
Print Assumptions C54_pbeta.
Example C54_pbeta_ex : extends Zero (fun a => pbeta (N:=ER_Num SFR) (Fin (1 / 3)) a (Fin 5) false).
Proof. apply (C54_pbeta SFR (1 / 3) 2 5); ex_sf. Qed.

Theorem C54_pbeta_diag : forall (S : SF) (x : R), incbeta_spec S -> 0 < x < 1 ->
  extends Zero (fun a => pbeta (N:=ER_Num S) (Fin x) a a false) /\ (x <> / 2 -> extends Up (fun a => pbeta (N:=ER_Num S) (Fin x) a a false)).
Proof. exact pbeta_diag. Qed.
Print Assumptions C54_pbeta_diag.
Example C54_pbeta_diag_ex : extends Zero (fun a => pbeta (N:=ER_Num SFR) (Fin (1 / 3)) a a false).
Proof. apply (C54_pbeta_diag SFR (1 / 3)); ex_sf. Qed.

Theorem C54_pbeta_point : forall (S : SF) (x : R), 0 < x < 1 -> pbeta (N:=ER_Num S) (Fin x) PInf PInf false = Fin (if Rlt_dec x (/ 2) then 0 else 1).
Proof. exact pbeta_point. Qed.
Print Assumptions C54_pbeta_point.
Example C54_pbeta_point_ex : pbeta (N:=ER_Num SFR) (Fin (1 / 2)) PInf PInf false = Fin 1.
Proof. rewrite C54_pbeta_point by lra. destruct (Rlt_dec (1 / 2) (/ 2)); [lra|reflexivity]. Qed.

Theorem C54_dbeta : forall (S : SF) (x a b : R), lgamma_spec S -> 0 < x < 1 -> 0 < a -> 0 < b ->
  extends Zero (fun a => dbeta (N:=ER_Num S) (Fin x) a (Fin b) false) /\ extends Up (fun a => dbeta (N:=ER_Num S) (Fin x) a (Fin b) false) /\
  extends Zero (fun b => dbeta (N:=ER_Num S) (Fin x) (Fin a) b false) /\ extends Up (fun b => dbeta (N:=ER_Num S) (Fin x) (Fin a) b false).
Proof. exact dbeta_params. Qed.
Print Assumptions C54_dbeta.
Example C54_dbeta_ex : extends Up (fun b => dbeta (N:=ER_Num SFR) (Fin (1 / 3)) (Fin 2) b false).
Proof. apply (C54_dbeta SFR (1 / 3) 2 5); ex_sf. Qed.

Theorem C54_dbeta_diag : forall (S : SF) (x : R), lgamma_spec S -> 0 < x < 1 ->
  extends Zero (fun a => dbeta (N:=ER_Num S) (Fin x) a a false) /\ extends Up (fun a => dbeta (N:=ER_Num S) (Fin x) a a false).
Proof. exact dbeta_diag. Qed.
Print Assumptions C54_dbeta_diag.
Example C54_dbeta_diag_ex : extends Zero (fun a => dbeta (N:=ER_Num SFR) (Fin (1 / 2)) a a false) /\ extends Up (fun a => dbeta (N:=ER_Num SFR) (Fin (1 / 2)) a a false).
Proof. apply (C54_dbeta_diag SFR (1 / 2)); ex_sf. Qed.

Theorem C54_pinvgauss_lambda : forall (S : SF) (x mu : R), erf_spec S -> 0 < x -> 0 < mu ->
  extends Zero (fun l => pinvgauss (N:=ER_Num S) (Fin x) (Fin mu) l false) /\
  (x <> mu -> extends Up (fun l => pinvgauss (N:=ER_Num S) (Fin x) (Fin mu) l false)).
Proof. exact pinvgauss_lambda. Qed.
Print Assumptions C54_pinvgauss_lambda.
Example C54_pinvgauss_lambda_ex : extends Up (fun l => pinvgauss (N:=ER_Num SFR) (Fin 3) (Fin 2) l false).
Proof. apply (C54_pinvgauss_lambda SFR 3 2); [exact SFR_erf|lra|lra|lra]. Qed.

Theorem C54_pinvgauss_mu : forall (S : SF) (x l : R), erf_spec S -> 0 < x -> 0 < l -> extends Zero (fun mu => pinvgauss (N:=ER_Num S) (Fin x) mu (Fin l) false).
Proof. exact pinvgauss_mu. Qed.
Print Assumptions C54_pinvgauss_mu.
Example C54_pinvgauss_mu_ex : extends Zero (fun mu => pinvgauss (N:=ER_Num SFR) (Fin 3) mu (Fin 2) false).
Proof. apply (C54_pinvgauss_mu SFR 3 2); ex_sf. Qed.

Theorem C54_pinvgauss_refuted : forall (S : SF) (x l : R), erf_spec S -> 0 < x -> 0 < l -> ~ extends Up (fun mu => pinvgauss (N:=ER_Num S) (Fin x) mu (Fin l) false).
Proof. exact pinvgauss_mu_ref. Qed.
Print Assumptions C54_pinvgauss_refuted.
Example C54_pinvgauss_refuted_ex : ~ extends Up (fun mu => pinvgauss (N:=ER_Num SFR) (Fin 3) mu (Fin 2) false).
Proof. apply (C54_pinvgauss_refuted SFR 3 2); ex_sf. Qed.

Theorem C54_dinvgauss_lambda : forall (S : SF) (x mu : R), 0 < x -> 0 < mu ->
  extends Zero (fun l => dinvgauss (N:=ER_Num S) (Fin x) (Fin mu) l false) /\ extends Up (fun l => dinvgauss (N:=ER_Num S) (Fin x) (Fin mu) l false).
Proof. exact dinvgauss_lambda. Qed.
Print Assumptions C54_dinvgauss_lambda.
Example C54_dinvgauss_lambda_ex : extends Zero (fun l => dinvgauss (N:=ER_Num SFR) (Fin 3) (Fin 3) l false) /\ extends Up (fun l => dinvgauss (N:=ER_Num SFR) (Fin 3) (Fin 3) l false).
Proof. apply (C54_dinvgauss_lambda SFR 3 3); ex_sf. Qed.

Theorem C54_dinvgauss_mu : forall (S : SF) (x l : R), 0 < x -> 0 < l -> extends Zero (fun mu => dinvgauss (N:=ER_Num S) (Fin x) mu (Fin l) false).
Proof. exact dinvgauss_mu. Qed.
Print Assumptions C54_dinvgauss_mu.
Example C54_dinvgauss_mu_ex : extends Zero (fun mu => dinvgauss (N:=ER_Num SFR) (Fin 3) mu (Fin 2) false).
Proof. apply (C54_dinvgauss_mu SFR 3 2); ex_sf. Qed.

Theorem C54_dinvgauss_refuted : forall (S : SF) (x l : R), 0 < x -> 0 < l -> ~ extends Up (fun mu => dinvgauss (N:=ER_Num S) (Fin x) mu (Fin l) false).
Proof. exact dinvgauss_mu_ref. Qed.
Print Assumptions C54_dinvgauss_refuted.
Example C54_dinvgauss_refuted_ex : ~ extends Up (fun mu => dinvgauss (N:=ER_Num SFR) (Fin 3) mu (Fin 2) false).
Proof. apply (C54_dinvgauss_refuted SFR 3 2); ex_sf. Qed.

Theorem C54_dpois : forall (S : SF) (k : nat), lgamma_int_ok S -> extends Zero (fun r => dpois (N:=ER_Num S) (Z.of_nat k) r false) /\ extends Up (fun r => dpois (N:=ER_Num S) (Z.of_nat k) r false).
Proof. exact dpois_rate. Qed.
Print Assumptions C54_dpois.
Example C54_dpois_ex : extends Zero (fun r => dpois (N:=ER_Num SFR) 3%Z r false) /\ extends Up (fun r => dpois (N:=ER_Num SFR) 3%Z r false).
Proof. exact (C54_dpois SFR 3 (lgamma_int SFR SFR_lgamma)). Qed.

Theorem C54_ppois : forall (S : SF) (k : nat), incgamma_int_ok S -> extends Zero (fun r => ppois (N:=ER_Num S) (Z.of_nat k) r false) /\ extends Up (fun r => ppois (N:=ER_Num S) (Z.of_nat k) r false).
Proof. exact ppois_rate. Qed.
Print Assumptions C54_ppois.
Example C54_ppois_ex : extends Zero (fun r => ppois (N:=ER_Num SFR) 3%Z r false) /\ extends Up (fun r => ppois (N:=ER_Num SFR) 3%Z r false).
Proof. exact (C54_ppois SFR 3 (incgamma_int SFR SFR_incgamma)). Qed.

Theorem C54_dt : forall (S : SF) (x : R), lgamma_spec S -> 0 < sf_eps S -> extends Up (fun n => dt (N:=ER_Num S) (Fin x) n false).
Proof. exact dt_dof. Qed.
Print Assumptions C54_dt.
Example C54_dt_ex : extends Up (fun n => dt (N:=ER_Num SFR) (Fin 3) n false).
Proof. apply (C54_dt SFR 3); ex_sf. Qed.

Theorem C54_pt : forall (S : SF) (x : R), erf_spec S -> incbeta_spec S -> 0 < sf_eps S -> extends Up (fun n => pt (N:=ER_Num S) (Fin x) n false).
Proof. exact pt_dof. Qed.
Print Assumptions C54_pt.
Example C54_pt_ex : extends Up (fun n => pt (N:=ER_Num SFR) (Fin (-3)) n false).
Proof. apply (C54_pt SFR (-3)); ex_sf. Qed.

Theorem C54_pf_df2 : forall (S : SF) (x d1 : R), incbeta_spec S -> incgamma_spec S -> 0 < sf_eps S -> sf_eps S <= d1 -> sf_eps S <= x -> sf_eps S <= x * d1 ->
  extends Up (fun d2 => pf (N:=ER_Num S) (Fin x) (Fin d1) d2 false).
Proof. exact pf_df2. Qed.
Print Assumptions C54_pf_df2.
Example C54_pf_df2_ex : extends Up (fun d => pf (N:=ER_Num SFR) (Fin 3) (Fin 2) d false).
Proof. apply (C54_pf_df2 SFR 3 2); ex_sf. Qed.

Theorem C54_pf_df1 : forall (S : SF) (x d2 : R), incbeta_spec S -> incgamma_spec S -> 0 < sf_eps S -> sf_eps S <= d2 -> sf_eps S <= x -> sf_eps S <= d2 / x ->
  extends Up (fun d1 => pf (N:=ER_Num S) (Fin x) d1 (Fin d2) false).
Proof. exact pf_df1. Qed.
Print Assumptions C54_pf_df1.
Example C54_pf_df1_ex : extends Up (fun d => pf (N:=ER_Num SFR) (Fin 3) d (Fin 2) false).
Proof. apply (C54_pf_df1 SFR 3 2); ex_sf. Qed.

Theorem C54_pf_both : forall (S : SF) (x : R), incbeta_spec S -> 0 < sf_eps S -> sf_eps S <= x -> extends Up (fun d => pf (N:=ER_Num S) (Fin x) d d false).
Proof. exact pf_both. Qed.
Print Assumptions C54_pf_both.
Example C54_pf_both_ex : extends Up (fun d => pf (N:=ER_Num SFR) (Fin 1) d d false).
Proof. apply (C54_pf_both SFR 1); ex_sf. Qed.

Theorem C54_df_df2 : forall (S : SF) (x d1 : R), lgamma_spec S -> 0 < sf_eps S -> sf_eps S <= d1 -> sf_eps S <= 2 / d1 -> 0 < x ->
  extends Up (fun d2 => df (N:=ER_Num S) (Fin x) (Fin d1) d2 false).
Proof. exact df_df2. Qed.
Print Assumptions C54_df_df2.
Example C54_df_df2_ex : extends Up (fun d => df (N:=ER_Num SFR) (Fin 3) (Fin 2) d false).
Proof. apply (C54_df_df2 SFR 3 2); ex_sf. Qed.

Theorem C54_df_df1 : forall (S : SF) (x d2 : R), lgamma_spec S -> 0 < sf_eps S -> sf_eps S <= d2 -> 0 < x ->
  extends Up (fun d1 => df (N:=ER_Num S) (Fin x) d1 (Fin d2) false).
Proof. exact df_df1. Qed.
Print Assumptions C54_df_df1.
Example C54_df_df1_ex : extends Up (fun d => df (N:=ER_Num SFR) (Fin 3) d (Fin 2) false).
Proof. apply (C54_df_df1 SFR 3 2); ex_sf. Qed.

Theorem C54_df_both : forall (S : SF) (x : R), lgamma_spec S -> 0 < sf_eps S -> 0 < x -> extends Up (fun d => df (N:=ER_Num S) (Fin x) d d false).
Proof. exact df_both. Qed.
Print Assumptions C54_df_both.
Example C54_df_both_ex : extends Up (fun d => df (N:=ER_Num SFR) (Fin 1) d d false).
Proof. apply (C54_df_both SFR 1); ex_sf. Qed.
