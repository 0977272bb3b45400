(** C19: the discrete quantile searches terminate. *)
From Coq Require Import Reals ZArith QArith Bool Lra Lia.
From Verif Require Import Num Sanity Prob Dens Quant ER ERTac Spec SpecER Witness.
From Verif Require Import Discrete DiscreteQ Refute.
Local Open Scope R_scope.

Theorem C19_qbinom_total :
  forall (T : Type) (N : Num T) (n : Z) (p pr : T), qbinom_run (Z.to_nat n + 2) p n pr <> None.
Proof. exact @qbinom_total. Qed.
Print Assumptions C19_qbinom_total.

Theorem C19_qbinom_fuel :
  forall (T : Type) (N : Num T) (fuel : nat) (n : Z) (p pr : T), (Z.to_nat n + 2 <= fuel)%nat
  -> qbinom_run fuel p n pr = Some (qbinom p n pr).
Proof. exact @qbinom_run_value. Qed.
Print Assumptions C19_qbinom_fuel.
Example C19_qbinom_fuel_ex : qbinom_run (N:=ER_Num SF0) 14 (Fin (1/2)) 12 (Fin (1/3))
  = Some (qbinom (N:=ER_Num SF0) (Fin (1/2)) 12 (Fin (1/3))).
Proof. apply C19_qbinom_fuel; apply le_n. Qed.

Theorem C19_qpois_total :
  forall (S : SF), incgamma_int_ok S -> forall tr r p, 0 <= r -> 0 <= p <= 1 -> (11 <= r ->
  exists s, (0 <= s)%Z /\ tr (qpois_normal_approx (N:=ER_Num S) (Fin p) (Fin r)) = Some s) ->
  exists fuel res, qpois_run (N:=ER_Num S) tr fuel (Fin p) (Fin r) = Some res.
Proof. exact qpois_total. Qed.
Print Assumptions C19_qpois_total.

Theorem C19_qpois_fuel :
  forall (T : Type) (N : Num T) tr (p r : T) f1 f2 res, (f1 <= f2)%nat -> qpois_run tr f1 p r =
  Some res -> qpois_run tr f2 p r = Some res.
Proof. exact @qpois_run_mono. Qed.
Print Assumptions C19_qpois_fuel.

(** an infinite rate passes the parameter check and the search runs for ever *)

Theorem C19_qpois_diverges_refuted :
  forall (S : SF) tr, trunc_ok tr -> exists p r, 0 < p < 1 /\ pois_sanity (N:=ER_Num S) r =
  true /\ forall fuel, qpois_run (N:=ER_Num S) tr fuel (Fin p) r = None.
Proof. exact qpois_diverges_refuted. Qed.
Print Assumptions C19_qpois_diverges_refuted.
Example C19_trunc_ex : trunc_ok (fun v => match v with Fin r => Some (Int_part r) | _ => None end).
Proof. intros r _. reflexivity. Qed.

Theorem C19_qpois_inf :
  forall (S : SF) tr p, 0 < p < 1 -> trunc_ok tr -> forall fuel, qpois_run (N:=ER_Num S) tr
  fuel (Fin p) PInf = None.
Proof. exact qpois_inf. Qed.
Print Assumptions C19_qpois_inf.
