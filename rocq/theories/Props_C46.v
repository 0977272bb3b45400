(** C46: a zero scale is the point mass at the location.  Proved for the normal family and for
    every quantile; the other families deviate at the mass point or everywhere, see the refutations. *)
From Coq Require Import Reals ZArith QArith Bool Lra Lia.
From Verif Require Import Num Sanity Prob Dens Quant ER ERTac Spec SpecER Witness.
From Verif Require Import ClosedElem LogForm Support NonNeg Degenerate Refute.
Local Open Scope R_scope.

Theorem C46_dnorm_deg : forall (S : SF) (x : R) (m : R),
  dnorm (N:=ER_Num S) (Fin x) (Fin m) (Fin 0) false = mass_pdf m x.
Proof. exact dnorm_deg. Qed.
Print Assumptions C46_dnorm_deg.
Example C46_dnorm_deg_ex :
  dnorm (N:=ER_Num SF0) (Fin 2) (Fin 3) (Fin 0) false = mass_pdf 3 2.
Proof. apply C46_dnorm_deg; ex_side. Qed.

Theorem C46_pnorm_deg : forall (S : SF) (x : R) (m : R),
  pnorm (N:=ER_Num S) (Fin x) (Fin m) (Fin 0) false = Fin (mass_cdf m x).
Proof. exact pnorm_deg. Qed.
Print Assumptions C46_pnorm_deg.
Example C46_pnorm_deg_ex :
  pnorm (N:=ER_Num SF0) (Fin 2) (Fin 3) (Fin 0) false = Fin (mass_cdf 3 2).
Proof. apply C46_pnorm_deg; ex_side. Qed.

Theorem C46_dlaplace_deg : forall (S : SF) (x : R) (m : R),
  dlaplace (N:=ER_Num S) (Fin x) (Fin m) (Fin 0) false = mass_pdf m x.
Proof. exact dlaplace_deg. Qed.
Print Assumptions C46_dlaplace_deg.
Example C46_dlaplace_deg_ex :
  dlaplace (N:=ER_Num SF0) (Fin 2) (Fin 3) (Fin 0) false = mass_pdf 3 2.
Proof. apply C46_dlaplace_deg; ex_side. Qed.

Theorem C46_qnorm_deg : forall (S : SF) (p : R) (m : R),
  0 <= p <= 1 -> qnorm (N:=ER_Num S) (Fin p) (Fin m) (Fin 0) = Fin m.
Proof. exact qnorm_deg. Qed.
Print Assumptions C46_qnorm_deg.
Example C46_qnorm_deg_ex :
  qnorm (N:=ER_Num SF0) (Fin (1/2)) (Fin 3) (Fin 0) = Fin 3.
Proof. apply C46_qnorm_deg; ex_side. Qed.

Theorem C46_qlaplace_deg : forall (S : SF) (p : R) (m : R),
  0 <= p <= 1 -> qlaplace (N:=ER_Num S) (Fin p) (Fin m) (Fin 0) = Fin m.
Proof. exact qlaplace_deg. Qed.
Print Assumptions C46_qlaplace_deg.
Example C46_qlaplace_deg_ex :
  qlaplace (N:=ER_Num SF0) (Fin (1/2)) (Fin 3) (Fin 0) = Fin 3.
Proof. apply C46_qlaplace_deg; ex_side. Qed.

Theorem C46_qlogis_deg : forall (S : SF) (p : R) (m : R),
  0 <= p <= 1 -> qlogis (N:=ER_Num S) (Fin p) (Fin m) (Fin 0) = Fin m.
Proof. exact qlogis_deg. Qed.
Print Assumptions C46_qlogis_deg.
Example C46_qlogis_deg_ex :
  qlogis (N:=ER_Num SF0) (Fin (1/2)) (Fin 3) (Fin 0) = Fin 3.
Proof. apply C46_qlogis_deg; ex_side. Qed.

Theorem C46_qcauchy_deg : forall (S : SF) (p : R) (m : R),
  0 <= p <= 1 -> qcauchy (N:=ER_Num S) (Fin p) (Fin m) (Fin 0) = Fin m.
Proof. exact qcauchy_deg. Qed.
Print Assumptions C46_qcauchy_deg.
Example C46_qcauchy_deg_ex :
  qcauchy (N:=ER_Num SF0) (Fin (1/2)) (Fin 3) (Fin 0) = Fin 3.
Proof. apply C46_qcauchy_deg; ex_side. Qed.

Theorem C46_qlnorm_deg : forall (S : SF) (p : R) (m : R),
  0 <= p <= 1 -> qlnorm (N:=ER_Num S) (Fin p) (Fin m) (Fin 0) = Fin (Rtrigo_def.exp m).
Proof. exact qlnorm_deg. Qed.
Print Assumptions C46_qlnorm_deg.
Example C46_qlnorm_deg_ex :
  qlnorm (N:=ER_Num SF0) (Fin (1/2)) (Fin 3) (Fin 0) = Fin (Rtrigo_def.exp 3).
Proof. apply C46_qlnorm_deg; ex_side. Qed.

Theorem C46_plaplace_deg_partial : forall (S : SF) (x : R) (m : R),
  x <> m -> plaplace (N:=ER_Num S) (Fin x) (Fin m) (Fin 0) false = Fin (mass_cdf m x).
Proof. exact plaplace_deg. Qed.
Print Assumptions C46_plaplace_deg_partial.
Example C46_plaplace_deg_partial_ex :
  plaplace (N:=ER_Num SF0) (Fin 2) (Fin 3) (Fin 0) false = Fin (mass_cdf 3 2).
Proof. apply C46_plaplace_deg_partial; ex_side. Qed.

Theorem C46_plogis_deg_partial : forall (S : SF) (x : R) (m : R),
  x <> m -> plogis (N:=ER_Num S) (Fin x) (Fin m) (Fin 0) false = Fin (mass_cdf m x).
Proof. exact plogis_deg. Qed.
Print Assumptions C46_plogis_deg_partial.
Example C46_plogis_deg_partial_ex :
  plogis (N:=ER_Num SF0) (Fin 2) (Fin 3) (Fin 0) false = Fin (mass_cdf 3 2).
Proof. apply C46_plogis_deg_partial; ex_side. Qed.

Theorem C46_pcauchy_deg_partial : forall (S : SF) (x : R) (m : R),
  x <> m -> pcauchy (N:=ER_Num S) (Fin x) (Fin m) (Fin 0) false = Fin (mass_cdf m x).
Proof. exact pcauchy_deg. Qed.
Print Assumptions C46_pcauchy_deg_partial.
Example C46_pcauchy_deg_partial_ex :
  pcauchy (N:=ER_Num SF0) (Fin 2) (Fin 3) (Fin 0) false = Fin (mass_cdf 3 2).
Proof. apply C46_pcauchy_deg_partial; ex_side. Qed.

Theorem C46_plnorm_deg : forall (S : SF) (x : R) (m : R),
  sf_eps S <= x -> 0 < x -> plnorm (N:=ER_Num S) (Fin x) (Fin m) (Fin 0) false = Fin (mass_cdf
  (Rtrigo_def.exp m) x).
Proof. exact plnorm_deg. Qed.
Print Assumptions C46_plnorm_deg.
Example C46_plnorm_deg_ex :
  plnorm (N:=ER_Num SF0) (Fin 2) (Fin 3) (Fin 0) false = Fin (mass_cdf (Rtrigo_def.exp 3) 2).
Proof. apply C46_plnorm_deg; ex_side. Qed.

Theorem C46_dlogis_refuted :
  forall S : SF, exists x m, dlogis (N:=ER_Num S) (Fin x) (Fin m) (Fin 0) false <> mass_pdf m x.
Proof. exact dlogis_deg_refuted. Qed.
Print Assumptions C46_dlogis_refuted.

Theorem C46_dcauchy_refuted :
  forall S : SF, exists x m, dcauchy (N:=ER_Num S) (Fin x) (Fin m) (Fin 0) false <> mass_pdf m
  x.
Proof. exact dcauchy_deg_refuted. Qed.
Print Assumptions C46_dcauchy_refuted.

Theorem C46_plaplace_refuted :
  forall S : SF, exists x m, plaplace (N:=ER_Num S) (Fin x) (Fin m) (Fin 0) false <> Fin
  (mass_cdf m x).
Proof. exact plaplace_deg_refuted. Qed.
Print Assumptions C46_plaplace_refuted.

Theorem C46_plogis_refuted :
  forall S : SF, exists x m, plogis (N:=ER_Num S) (Fin x) (Fin m) (Fin 0) false <> Fin
  (mass_cdf m x).
Proof. exact plogis_deg_refuted. Qed.
Print Assumptions C46_plogis_refuted.

Theorem C46_pcauchy_refuted :
  forall S : SF, exists x m, pcauchy (N:=ER_Num S) (Fin x) (Fin m) (Fin 0) false <> Fin
  (mass_cdf m x).
Proof. exact pcauchy_deg_refuted. Qed.
Print Assumptions C46_pcauchy_refuted.

Theorem C46_dlnorm_refuted :
  forall S : SF, exists x m, 0 < x /\ dlnorm (N:=ER_Num S) (Fin x) (Fin m) (Fin 0) false <>
  mass_pdf (Rtrigo_def.exp m) x.
Proof. exact dlnorm_deg_refuted. Qed.
Print Assumptions C46_dlnorm_refuted.

(** what the code returns instead *)

Theorem C46_plaplace_deg_at : forall (S : SF) (m : R),
  plaplace (N:=ER_Num S) (Fin m) (Fin m) (Fin 0) false = Fin (1 / 2).
Proof. exact plaplace_deg_at. Qed.
Print Assumptions C46_plaplace_deg_at.
Example C46_plaplace_deg_at_ex :
  plaplace (N:=ER_Num SF0) (Fin 3) (Fin 3) (Fin 0) false = Fin (1 / 2).
Proof. apply C46_plaplace_deg_at; ex_side. Qed.

Theorem C46_plogis_deg_at : forall (S : SF) (m : R),
  plogis (N:=ER_Num S) (Fin m) (Fin m) (Fin 0) false = Fin (1 / 2).
Proof. exact plogis_deg_at. Qed.
Print Assumptions C46_plogis_deg_at.
Example C46_plogis_deg_at_ex :
  plogis (N:=ER_Num SF0) (Fin 3) (Fin 3) (Fin 0) false = Fin (1 / 2).
Proof. apply C46_plogis_deg_at; ex_side. Qed.

Theorem C46_pcauchy_deg_at : forall (S : SF) (m : R),
  pcauchy (N:=ER_Num S) (Fin m) (Fin m) (Fin 0) false = NaN.
Proof. exact pcauchy_deg_at. Qed.
Print Assumptions C46_pcauchy_deg_at.
Example C46_pcauchy_deg_at_ex :
  pcauchy (N:=ER_Num SF0) (Fin 3) (Fin 3) (Fin 0) false = NaN.
Proof. apply C46_pcauchy_deg_at; ex_side. Qed.

Theorem C46_dlogis_deg_value : forall (S : SF) (x : R) (m : R),
  dlogis (N:=ER_Num S) (Fin x) (Fin m) (Fin 0) false = NaN.
Proof. exact dlogis_deg. Qed.
Print Assumptions C46_dlogis_deg_value.
Example C46_dlogis_deg_value_ex :
  dlogis (N:=ER_Num SF0) (Fin 2) (Fin 3) (Fin 0) false = NaN.
Proof. apply C46_dlogis_deg_value; ex_side. Qed.

Theorem C46_dcauchy_deg_value : forall (S : SF) (x : R) (m : R),
  dcauchy (N:=ER_Num S) (Fin x) (Fin m) (Fin 0) false = NaN.
Proof. exact dcauchy_deg. Qed.
Print Assumptions C46_dcauchy_deg_value.
Example C46_dcauchy_deg_value_ex :
  dcauchy (N:=ER_Num SF0) (Fin 2) (Fin 3) (Fin 0) false = NaN.
Proof. apply C46_dcauchy_deg_value; ex_side. Qed.

Theorem C46_dlnorm_deg_value : forall (S : SF) (x : R) (m : R),
  0 < x -> dlnorm (N:=ER_Num S) (Fin x) (Fin m) (Fin 0) false = Fin 0.
Proof. exact dlnorm_deg. Qed.
Print Assumptions C46_dlnorm_deg_value.
Example C46_dlnorm_deg_value_ex :
  dlnorm (N:=ER_Num SF0) (Fin 2) (Fin 3) (Fin 0) false = Fin 0.
Proof. apply C46_dlnorm_deg_value; ex_side. Qed.
