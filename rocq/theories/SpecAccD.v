(** Accuracy of the density functions in double precision.  A density is computed as the exponential of
    a sum of terms, so the error of its logarithm is proportional to the sum of the sizes of the terms.
    [density_acc e k S d p]: the logarithmic form differs from ln p by at most k e S, and when that bound
    is at most 1 and p is not above exp 600 the plain form has relative error about k e S + e, up to the
    least positive double. *)
From Coq Require Import ZArith Reals.
From Flocq Require Import Core IEEE754.BinarySingleNaN.
From Verif Require Import GammaFn B64 SpecAcc.
Local Open Scope R_scope.

Definition density_acc (e k S : R) (d : bool -> b64) (p : R) : Prop :=
  within (k * e * S) (d true) (ln p) /\
  (k * e * S <= 1 -> ln p <= 600 -> near (k * e * S + e) tiny (d false) p).
(** the exponential, also above 1 *)
Definition exp_up_acc (F : TF) (e : R) : Prop := computes e (fun r => r <= 610) (t_exp F) exp.
Definition lgamma_acc (F : TF) (e : R) : Prop := computes e (fun r => 0 < r <= bpow radix2 900) (t_lgamma F) (fun r => ln (Gam r)).
Definition log_binom_acc (F : TF) (e : R) : Prop := forall n x : Z, (0 < x < n)%Z -> (n <= 2 ^ 53)%Z ->
  near e tiny (t_log_binom F n x) (ln (Binomial.C (Z.to_nat n) (Z.to_nat x))).
(** a number whose products and quotients are followed without underflow or overflow *)
Definition mid (r : R) : Prop := / huge <= Rabs r <= huge.
Definition mid0 (r : R) : Prop := r = 0 \/ mid r.
