(** A concrete choice of the external constants and functions, used by the
    examples beside the theorems.  Special functions that no example needs are
    NaN here; [WitnessSF.v] has the real ones. *)
From Coq Require Import Reals ZArith Lra Lia.
From Verif Require Import Num ER ERTac.
Local Open Scope R_scope.

Definition SF0 : SF := {|
  sf_eps := / 4503599627370496;   (* 2^-52 *)
  sf_tmin := 0;
  sf_pow_special := fun _ _ => NaN;
  sf_erf := fun _ => NaN; sf_erf_inv := fun _ => NaN; sf_lgamma := fun _ => NaN;
  sf_incgamma := fun _ _ => NaN; sf_incgamma_inv := fun _ _ => NaN;
  sf_incbeta := fun _ _ _ => NaN; sf_incbeta_inv := fun _ _ _ => NaN |}.

(** lgamma and the incomplete gamma function at integer shape, elsewhere NaN *)
Definition SF_int : SF := {|
  sf_eps := / 4503599627370496; sf_tmin := 0;
  sf_pow_special := fun _ _ => NaN; sf_erf := fun _ => NaN; sf_erf_inv := fun _ => NaN;
  sf_lgamma := fun a => match a with
    Fin a => Fin (ln (INR (fact (Z.to_nat (Int_part a) - 1)))) | _ => NaN end;
  sf_incgamma := fun a x => match a, x with
    Fin a, Fin r => Fin (1 - Rtrigo_def.exp (- r) *
      sum_f_R0 (fun k => r ^ k / INR (fact k)) (Z.to_nat (Int_part a) - 1))
    | _, _ => NaN end;
  sf_incgamma_inv := fun _ _ => NaN; sf_incbeta := fun _ _ _ => NaN;
  sf_incbeta_inv := fun _ _ _ => NaN |}.
Lemma Int_part_IZR z : Int_part (IZR z) = z.
Proof.
  unfold Int_part. rewrite <- (tech_up (IZR z) (z + 1)); [lia| |]; rewrite plus_IZR; lra.
Qed.
Lemma Int_part_nat n : (Z.to_nat (Int_part (INR n + 1)) - 1 = n)%nat.
Proof.
  replace (INR n + 1) with (IZR (Z.of_nat n + 1)) by (rewrite plus_IZR, <- INR_IZR_INZ; lra).
  rewrite Int_part_IZR. lia.
Qed.

(** closes the hypotheses of a theorem at concrete arguments *)
Ltac ex_side :=
  try change (sf_eps SF0) with (/ 4503599627370496);
  try change (sf_eps SF_int) with (/ 4503599627370496);
  first [ lra | lia | discriminate | reflexivity | apply Elt_Fin; lra | apply Ele_Fin; lra
        | split; ex_side | left; ex_side | right; ex_side ].
