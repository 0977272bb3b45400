(** The quantile and distribution functions of the F family with infinitely many degrees of freedom. *)
From Coq Require Import Reals ZArith QArith Bool Lra Lia Psatz.
From Coquelicot Require Import Coquelicot.
From Verif Require Import Num Sanity ER ERTac Prob Dens Quant Spec SpecER ClosedElem RealElem
  LogForm Support Elem Analysis Erf NormR Norm PowInt GammaFn BetaFn SpecSF FamR FamG FamB.
Local Open Scope R_scope.

Section S.
Variable S : SF.
Notation NS := (ER_Num S).
Notation eps := (sf_eps S).
Lemma qf_first p d2 : incgamma_spec S -> incgamma_inv_spec S -> 0 < eps -> eps <= d2 -> 0 < p < 1 ->
  exists q, qf (N:=NS) (Fin p) PInf (Fin d2) = Fin q /\ 0 < q /\ 1 - chisq_cdf d2 (d2 / q) = p /\
    (eps <= q -> eps <= d2 / q -> pf (N:=NS) (Fin q) PInf (Fin d2) false = Fin p).
Proof.
  intros HI HV He H2 Hp. destruct (qchisq_val S (1 - p) d2 HV ltac:(lra) ltac:(lra)) as (c & E & Pc & Hc).
  assert (Q : 0 < d2 / c) by (apply Rdiv_lt_0_compat; lra). assert (C : d2 / (d2 / c) = c) by (field; lra).
  exists (d2 / c). split; [|split; [auto|split; [rewrite C; lra|]]].
  - unfold qf, qf_limit_vals_dof. change (sub (Num:=NS) (ofZ 1) (Fin p)) with (Fin (1 - p)). rewrite E. un_cls. er_red. er_arith. rdecide. reflexivity.
  - intros L1 L2. rewrite C in L2. assert (D : div (Num:=NS) (Fin d2) (Fin (d2 / c)) = Fin c) by (un_cls; er_arith; now rewrite C).
    unfold pf, pf_limit_vals_dof. rewrite D, (pchisq_val S c d2 false HI He ltac:(lra) L2), Hc. unfold val. un_cls. er_red. er_arith. rdecide. f_equal. lra.
Qed.
Lemma qf_second p d1 : incgamma_spec S -> incgamma_inv_spec S -> 0 < eps -> eps <= d1 -> 0 < p < 1 ->
  exists q, qf (N:=NS) (Fin p) (Fin d1) PInf = Fin q /\ 0 < q /\ chisq_cdf d1 (q * d1) = p /\
    (eps <= q -> eps <= q * d1 -> pf (N:=NS) (Fin q) (Fin d1) PInf false = Fin p).
Proof.
  intros HI HV He H2 Hp. destruct (qchisq_val S p d1 HV ltac:(lra) Hp) as (c & E & Pc & Hc).
  assert (Q : 0 < c / d1) by (apply Rdiv_lt_0_compat; lra). assert (C : c / d1 * d1 = c) by (field; lra).
  exists (c / d1). split; [|split; [auto|split; [rewrite C; lra|]]].
  - unfold qf, qf_limit_vals_dof. rewrite E. un_cls. er_red. er_arith. rdecide. reflexivity.
  - intros L1 L2. rewrite C in L2. assert (D : mul (Num:=NS) (Fin (c / d1)) (Fin d1) = Fin c) by (un_cls; er_arith; now rewrite C).
    unfold pf, pf_limit_vals_dof. rewrite D, (pchisq_val S c d1 false HI He ltac:(lra) L2), Hc. unfold val. un_cls. er_red. er_arith. rdecide. reflexivity.
Qed.
Lemma qf_both p : 0 < p < 1 -> qf (N:=NS) (Fin p) PInf PInf = Fin 1.
Proof. intros Hp. unfold qf, qf_limit_vals_dof. un_cls. er_red. er_arith. rdecide. reflexivity. Qed.
End S.
