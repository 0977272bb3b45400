(** C49: pinvgamma for every positive rate: refuted, the internal gamma call rejects a scale
    1/rate below epsilon. *)
From Coq Require Import Reals ZArith QArith Bool Lra Lia.
From Verif Require Import Num Sanity Prob Dens Quant ER ERTac Spec SpecER Witness.
From Verif Require Import ClosedElem LogForm Support NonNeg Degenerate Refute.
Local Open Scope R_scope.

Theorem C49_pinvgamma_refuted :
  forall S : SF, 0 < sf_eps S -> exists x k r, 0 < x /\ 0 < k /\ 0 < r /\ ~ in_unit (pinvgamma
  (N:=ER_Num S) (Fin x) (Fin k) (Fin r) false).
Proof. exact pinvgamma_refuted. Qed.
Print Assumptions C49_pinvgamma_refuted.

Theorem C49_pinvgamma_big_rate : forall (S : SF) x k r lf,
  0 < (sf_eps S) -> 0 <= k -> 0 < r -> 1 / r < (sf_eps S) -> 0 < x -> pinvgamma (N:=ER_Num S)
  (Fin x) (Fin k) (Fin r) lf = NaN.
Proof. exact pinvgamma_big_rate. Qed.
Print Assumptions C49_pinvgamma_big_rate.
Example C49_pinvgamma_big_rate_ex :
  pinvgamma (N:=ER_Num SF0) (Fin 1) (Fin 1) (Fin 4503599627370497) false = NaN.
Proof. apply C49_pinvgamma_big_rate; try (change (sf_eps SF0) with (/ 4503599627370496); lra). Qed.
