(** C64: the model passes the project's own test suite. *)
From Coq Require Import ZArith QArith Bool List.
From Verif Require Import Num B64 SpecTests TestsSuite TestsPatch B64Exec TestsThm.
From Flocq Require Import IEEE754.BinarySingleNaN.


(** The assertions are those of tests/dens, tests/prob and tests/quant (TestsSuite.v); [all_pass] says that each passes
    by the criterion of tests/stats_tests.hpp.  Limiting cases: for every backend with the limits of
    SpecTests.v, whatever it computes elsewhere.  Reference values: for the executable backend of B64Exec.v. *)

Theorem C64_dens_limits : forall F, limits F -> all_pass (dens_limits F).
Proof. exact dens_limits_ok. Qed.
Print Assumptions C64_dens_limits.
Example C64_dens_limits_ex : length (dens_limits TFX) = 342%nat /\ limits TFX.
Proof. split; [reflexivity | exact TFX_limits]. Qed.

Theorem C64_prob_limits : forall F, limits F -> all_pass (prob_limits F).
Proof. exact prob_limits_ok. Qed.
Print Assumptions C64_prob_limits.
Example C64_prob_limits_ex : length (prob_limits TFX) = 353%nat /\ limits TFX.
Proof. split; [reflexivity | exact TFX_limits]. Qed.

Theorem C64_quant_limits : forall F, limits F -> all_pass (quant_limits F).
Proof. exact quant_limits_ok. Qed.
Print Assumptions C64_quant_limits.
Example C64_quant_limits_ex : length (quant_limits TFX) = 403%nat /\ limits TFX.
Proof. split; [reflexivity | exact TFX_limits]. Qed.

Theorem C64_dens_values : exists F, limits F /\ all_pass (dens_values F).
Proof. exact dens_values_ok. Qed.
Print Assumptions C64_dens_values.
Example C64_dens_values_ex : length (dens_values TFX) = 64%nat.
Proof. reflexivity. Qed.

Theorem C64_prob_values : exists F, limits F /\ all_pass (prob_values F).
Proof. exact prob_values_ok. Qed.
Print Assumptions C64_prob_values.
Example C64_prob_values_ex : length (prob_values TFX) = 84%nat.
Proof. reflexivity. Qed.

Theorem C64_quant_values : exists F, limits F /\ all_pass (quant_values F).
Proof. exact quant_values_ok. Qed.
Print Assumptions C64_quant_values.
Example C64_quant_values_ex : length (quant_values TFX) = 39%nat.
Proof. reflexivity. Qed.

(** A backend that returns a wrong number at ordinary arguments fails: the criterion is not vacuous. *)
Example C64_not_vacuous : ~ all_pass (value_dexp (patch (mkTF (fun _ => bofZ 7) (fun _ => bofZ 7) (fun _ => bofZ 7) (fun _ => bofZ 7) (fun _ _ => bofZ 7) (fun _ _ => bofZ 7) (fun _ => bofZ 7) (fun _ => bofZ 7) (fun _ => bofZ 7) (fun _ => bofZ 7) (fun _ => bofZ 7) (fun _ => bofZ 7) (fun _ _ => bofZ 7) (fun _ _ => bofZ 7) (fun _ _ _ => bofZ 7) (fun _ _ _ => bofZ 7) (fun _ _ => bofZ 7) (fun _ => bofZ 7) (bofZ 7) (bofZ 7) (bofZ 7) (bofZ 7) (bofZ 7) (bofZ 7)))).
Proof. intro H. inversion H as [|? ? H1 _]. vm_compute in H1. discriminate. Qed.
