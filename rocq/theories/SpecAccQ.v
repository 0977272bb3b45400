(** Accuracy of the functions of the backend that the quantile functions call.  An inverse function is
    described by the function it inverts: whenever f q is the argument, the result is near q. *)
From Coq Require Import ZArith Reals.
From Flocq Require Import Core IEEE754.BinarySingleNaN.
From Verif Require Import Erf GammaFn BetaFn B64 SpecAcc.
Local Open Scope R_scope.

Definition log1p_acc (F : TF) (e : R) : Prop := computes e (fun r => -1 < r <= 0) (t_log1p F) (fun r => ln (1 + r)).
Definition tan_acc (F : TF) (e : R) : Prop :=
  computes e (fun r => - (PI / 2) < r < PI / 2 /\ Rabs (tan r) <= huge) (t_tan F) tan.
Definition exp_all_acc (F : TF) (e : R) : Prop := computes e (fun r => exp r <= huge) (t_exp F) exp.
Definition erf_inv_acc (F : TF) (e : R) : Prop := forall x q, finite x -> erfR q = B2R x -> near e tiny (t_erf_inv F x) q.
Definition incgamma_inv_acc (F : TF) (e : R) : Prop := forall a p q, positive a -> finite p -> 0 < q <= huge ->
  PG (B2R a) q = B2R p -> near e tiny (t_incgamma_inv F a p) q.
Definition incbeta_inv_acc (F : TF) (e : R) : Prop := forall a b p q, positive a -> positive b -> finite p -> 0 < q < 1 ->
  IB (B2R a) (B2R b) q = B2R p -> near e tiny (t_incbeta_inv F a b p) q.
(** a probability: a double strictly between 0 and 1 *)
Definition prob (p : b64) : Prop := finite p /\ 0 < B2R p < 1.
