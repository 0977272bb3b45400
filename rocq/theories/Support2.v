(** The end values of the distribution functions when a parameter is infinite (C05). *)
From Coq Require Import Reals ZArith QArith Bool Lra Lia.
From Verif Require Import Num Sanity ER ERTac Prob Dens Quant Spec SpecER ClosedElem LogForm Support.
Local Open Scope R_scope.
Section Ends.
Context (S : SF).
Local Notation NS := (ER_Num S).
Local Notation eps := (sf_eps S).
Ltac par k := destruct k as [| | |k]; try discriminate; try match goal with K : Ele (Fin _) (Fin _) |- _ => apply Ele_Fin in K end.
Ltac done_ lf := destruct lf; er_fin; rdec; er_fin.
Lemma pgamma_above_ext k th lf : Ele (Fin 0) k -> eps <= th -> pgamma (N:=NS) PInf k (Fin th) lf = one_form lf.
Proof. intros K T. par k; [unfold pgamma, pgamma_limit_vals; done_ lf|now apply pgamma_above]. Qed.
Lemma pgamma_below_ext x k th lf : 0 < eps -> Ele x (Fin 0) -> Ele (Fin 0) k -> Ele (Fin eps) th -> pgamma (N:=NS) x k th lf = zero_form lf.
Proof. intros E X K T. par k; par th; destruct x as [| | |x]; try discriminate; try (apply Ele_Fin in X); unfold pgamma; done_ lf. Qed.
Lemma pchisq_above_ext k lf : Ele (Fin 0) k -> pchisq (N:=NS) PInf k lf = one_form lf.
Proof. intros K. par k; [unfold pchisq; done_ lf|now apply pchisq_above]. Qed.
Lemma pf_above_ext d1 d2 lf : Ele (Fin eps) d1 -> Ele (Fin eps) d2 -> pf (N:=NS) PInf d1 d2 lf = one_form lf.
Proof. intros K T. par d1; par d2; unfold pf; done_ lf. Qed.
Lemma pweibull_above_ext k th lf : 0 < eps -> Ele (Fin eps) k -> eps <= th -> pweibull (N:=NS) PInf k (Fin th) lf = one_form lf.
Proof. intros E K T. par k; [unfold pweibull, pweibull_limit_vals; done_ lf|now apply pweibull_above]. Qed.
Lemma pinvgauss_above_ext mu l lf : Ele (Fin 0) mu -> Ele (Fin 0) l -> pinvgauss (N:=NS) PInf mu l lf = one_form lf.
Proof. intros K T. par mu; par l; unfold pinvgauss, pinvgauss_limit_vals; done_ lf. Qed.
Lemma pbeta_ext x a b lf : Ele (Fin 0) a -> Ele (Fin 0) b -> (Ele x (Fin 0) -> pbeta (N:=NS) x a b lf = zero_form lf) /\ (Ele (Fin 1) x -> pbeta (N:=NS) x a b lf = one_form lf).
Proof. intros K T. split; intros X; (destruct x as [| | |x]; try discriminate; try (apply Ele_Fin in X)); par a; par b; unfold pbeta; done_ lf. Qed.
Lemma pt_ends_ext d lf : Ele (Fin eps) d -> pt (N:=NS) MInf d lf = zero_form lf /\ pt (N:=NS) PInf d lf = one_form lf.
Proof. intros K. par d; split; unfold pt; done_ lf. Qed.
End Ends.
