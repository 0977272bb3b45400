(** C16: quantiles of the t distribution above two degrees of freedom are not monotone. *)
From Coq Require Import Reals Lra.
From Verif Require Import Num ER ERTac Quant Spec SpecER Norm NormR SpecSF Witness WitnessSF QtBad QtPole InvGaussL.
Local Open Scope R_scope.


(** The monotonicity claim fails for qt with 3 degrees of freedom: Hill's coefficient c vanishes at a
    normal quantile between 3 and 4, where qt is infinite, and qt is finite again above. *)

Theorem C16_qt_mono_refuted : exists (S : SF) (dof p1 p2 t : R), erf_inv_spec S /\ 0 < sf_eps S <= dof /\
  0 < p1 < p2 /\ p2 < 1 /\ qt (N:=ER_Num S) (Fin p1) (Fin dof) = PInf /\ qt (N:=ER_Num S) (Fin p2) (Fin dof) = Fin t.
Proof. exact qt_3_mono_refuted. Qed.
Print Assumptions C16_qt_mono_refuted.

Theorem C16_qt_3_not_mono : forall S : SF, erf_inv_spec S -> 0 < sf_eps S <= 1 -> exists p1 p2 t : R, 0 < p1 < p2 /\ p2 < 1 /\
  qt (N:=ER_Num S) (Fin p1) (Fin 3) = PInf /\ qt (N:=ER_Num S) (Fin p2) (Fin 3) = Fin t.
Proof. exact qt_3_not_mono. Qed.
Print Assumptions C16_qt_3_not_mono.
Example C16_qt_3_not_mono_ex : exists p1 p2 t, 0 < p1 < p2 /\ p2 < 1 /\ qt (N:=ER_Num SFR) (Fin p1) (Fin 3) = PInf /\ qt (N:=ER_Num SFR) (Fin p2) (Fin 3) = Fin t.
Proof. apply C16_qt_3_not_mono; ex_sf. Qed.

Theorem C16_qt_3_unbounded : forall (S : SF) (M : R), erf_inv_spec S -> 0 < sf_eps S <= 1 -> exists p t : R, norm_cdf 0 1 3 < p < norm_cdf 0 1 4 /\
  qt (N:=ER_Num S) (Fin p) (Fin 3) = Fin t /\ M < t.
Proof. exact qt_3_unbounded. Qed.
Print Assumptions C16_qt_3_unbounded.
Example C16_qt_3_unbounded_ex : exists p t, norm_cdf 0 1 3 < p < norm_cdf 0 1 4 /\ qt (N:=ER_Num SFR) (Fin p) (Fin 3) = Fin t /\ 1000 < t.
Proof. apply C16_qt_3_unbounded; ex_sf. Qed.

Theorem C16_qt_range_refuted : exists (S : SF) (p dof : R), 0 < sf_eps S /\ 0 < p < 1 /\ sf_eps S <= dof /\
  qt (N:=ER_Num S) (Fin p) (Fin dof) = NaN.
Proof. exact qt_nan_refuted. Qed.
Print Assumptions C16_qt_range_refuted.

Theorem C16_qinvgauss_like : forall (S : SF) mu l, erf_spec S -> 0 < mu -> 0 < l -> quantile_like (fun p => qinvgauss (N:=ER_Num S) p (Fin mu) (Fin l)) (Fin 0) PInf.
Proof. exact qinvgauss_like. Qed.
Print Assumptions C16_qinvgauss_like.
Example C16_qinvgauss_like_ex : quantile_like (fun p => qinvgauss (N:=ER_Num SFR) p (Fin 2) (Fin 3)) (Fin 0) PInf.
Proof. apply C16_qinvgauss_like; ex_sf. Qed.
