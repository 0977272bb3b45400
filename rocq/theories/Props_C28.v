(** C28: the short overloads mean the standard parameters.  The two-argument dnorm calls pnorm
    (dnorm.ipp 100-106), so its clause is refuted for every choice of the special functions. *)
From Coq Require Import Reals ZArith QArith Bool Lra Lia.
From Verif Require Import Num Sanity Prob Dens Quant ER ERTac Spec SpecER Witness.
From Verif Require Import ClosedElem LogForm Support NonNeg Degenerate Refute.
Local Open Scope R_scope.

Theorem C28_pnorm_std :
  forall (S : SF) x lf, pnorm_std (N:=ER_Num S) x lf = pnorm (N:=ER_Num S) x (Fin 0) (Fin 1) lf.
Proof. exact (fun S x lf => eq_refl). Qed.
Print Assumptions C28_pnorm_std.

Theorem C28_qnorm_std :
  forall (S : SF) p, qnorm_std (N:=ER_Num S) p = qnorm (N:=ER_Num S) p (Fin 0) (Fin 1).
Proof. exact (fun S p => eq_refl). Qed.
Print Assumptions C28_qnorm_std.

Theorem C28_dunif_std : forall (S : SF) (x : ER),
  dunif_std (N:=ER_Num S) x = dunif (N:=ER_Num S) x (Fin 0) (Fin 1) false.
Proof. exact dunif_std_eq. Qed.
Print Assumptions C28_dunif_std.
Example C28_dunif_std_ex :
  dunif_std (N:=ER_Num SF0) (Fin (1/2)) = dunif (N:=ER_Num SF0) (Fin (1/2)) (Fin 0) (Fin 1)
  false.
Proof. apply C28_dunif_std; ex_side. Qed.

Theorem C28_dnorm_std_refuted :
  forall S : SF, exists x lf, dnorm_std (N:=ER_Num S) x lf <> dnorm (N:=ER_Num S) x (Fin 0)
  (Fin 1) lf.
Proof. exact dnorm_std_refuted. Qed.
Print Assumptions C28_dnorm_std_refuted.
