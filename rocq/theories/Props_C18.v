(** C18: the Poisson quantile.  The search stops at the first k whose CDF exceeds p (not
    reaches p), so the property is refuted at every attained probability. *)
From Coq Require Import Reals ZArith QArith Bool Lra Lia.
From Verif Require Import Num Sanity Prob Dens Quant ER ERTac Spec SpecER Witness.
From Verif Require Import Discrete DiscreteQ Refute.
Local Open Scope R_scope.

Theorem C18_qpois_refuted :
  forall (S : SF) tr, incgamma_int_ok S -> sf_eps S <= 1 -> exists fuel r p k, 0 < r /\ 0 < p <
  1 /\ qpois_run (N:=ER_Num S) tr fuel (Fin p) (Fin r) = Some (Fin (IZR k)) /\ ~ is_quantile
  (fun j => ppois (N:=ER_Num S) j (Fin r) false) (fun j => 0 <= j)%Z (Fin p) k.
Proof. exact qpois_refuted. Qed.
Print Assumptions C18_qpois_refuted.
Example C18_witness : incgamma_int_ok SF_int /\ lgamma_int_ok SF_int /\ sf_eps SF_int <= 1.
Proof.
  repeat split.
  - intros n r Hr. cbn [sf_incgamma SF_int]. now rewrite Int_part_nat.
  - intros n. cbn [sf_lgamma SF_int]. now rewrite Int_part_nat.
  - cbn [sf_eps SF_int]. lra.
Qed.

Theorem C18_qpois_of_ppois :
  forall (S : SF), incgamma_int_ok S -> forall tr r (k : nat), 0 < r < 11 -> sf_eps S <= r ->
  exists p, ppois (N:=ER_Num S) (Z.of_nat k) (Fin r) false = Fin p /\ 0 < p < 1 /\ exists fuel,
  qpois_run (N:=ER_Num S) tr fuel (Fin p) (Fin r) = Some (Fin (INR k + 1)).
Proof. exact qpois_tie. Qed.
Print Assumptions C18_qpois_of_ppois.

(** what the search does compute *)

Theorem C18_qpois_small_partial :
  forall (S : SF), incgamma_int_ok S -> forall tr r p, 0 < r < 11 -> sf_eps S <= r -> 0 < p < 1
  -> exists fuel k, qpois_run (N:=ER_Num S) tr fuel (Fin p) (Fin r) = Some (Fin (IZR k)) /\
  is_strict_quantile (fun j => ppois (N:=ER_Num S) j (Fin r) false) (fun j => 0 <= j)%Z (Fin p)
  k.
Proof. exact qpois_small. Qed.
Print Assumptions C18_qpois_small_partial.

Theorem C18_qpois_large_partial :
  forall (S : SF), incgamma_int_ok S -> forall tr r p s, 11 <= r -> sf_eps S <= r -> 0 < p < 1
  -> tr (qpois_normal_approx (N:=ER_Num S) (Fin p) (Fin r)) = Some s -> (0 <= s)%Z -> Ele
  (ppois (N:=ER_Num S) s (Fin r) false) (Fin p) -> exists fuel k, qpois_run (N:=ER_Num S) tr
  fuel (Fin p) (Fin r) = Some (Fin (IZR k)) /\ is_strict_quantile (fun j => ppois (N:=ER_Num S)
  j (Fin r) false) (fun j => 0 <= j)%Z (Fin p) k.
Proof. exact qpois_large. Qed.
Print Assumptions C18_qpois_large_partial.

Theorem C18_qpois_large_off :
  forall (S : SF), incgamma_int_ok S -> forall tr r p s, 11 <= r -> sf_eps S <= r -> 0 < p < 1
  -> tr (qpois_normal_approx (N:=ER_Num S) (Fin p) (Fin r)) = Some s -> (0 < s)%Z -> Elt (Fin
  p) (ppois (N:=ER_Num S) s (Fin r) false) -> qpois_run (N:=ER_Num S) tr 1 (Fin p) (Fin r) =
  Some (Fin (IZR (s - 1))).
Proof. exact qpois_large_off. Qed.
Print Assumptions C18_qpois_large_off.
