(** Accuracy of a double-precision result.  [near k h y r]: the double y is finite and its value is
    r * exp t + s with |t| <= k and |s| <= h; so the relative error is at most exp k - 1 (about k) up
    to an absolute error h, which accounts for underflow.  [within d y r]: y is finite and differs
    from r by at most d. *)
From Coq Require Import ZArith Reals.
From Flocq Require Import Core IEEE754.BinarySingleNaN.
From Verif Require Import Erf GammaFn BetaFn B64.
Local Open Scope R_scope.

Definition finite (x : b64) : Prop := is_finite x = true.
Definition near (k h : R) (y : b64) (r : R) : Prop :=
  finite y /\ exists t s : R, Rabs t <= k /\ Rabs s <= h /\ B2R y = r * exp t + s.
Definition within (d : R) (y : b64) (r : R) : Prop := finite y /\ Rabs (B2R y - r) <= d.

(** 2^-52, the distance from 1 to the next double, and 2^-1074, the least positive double *)
Definition ulp1 : R := bpow radix2 (-52).
Definition tiny : R := bpow radix2 (-1074).
(** the size up to which intermediate results are followed *)
Definition huge : R := bpow radix2 1000.

(** the double function f computes g with relative error e on D *)
Definition computes (e : R) (D : R -> Prop) (f : b64 -> b64) (g : R -> R) : Prop :=
  forall x, finite x -> D (B2R x) -> near e tiny (f x) (g (B2R x)).
Definition any (r : R) : Prop := True.
(** the error unit of a library: at least that of the arithmetic, and less than a millionth *)
Definition unit_ok (e : R) : Prop := ulp1 <= e <= / 1000000.
Definition positive (x : b64) : Prop := finite x /\ 0 < B2R x.
Definition nonpos (r : R) : Prop := r <= 0.
(** the functions and constants of the backend *)
Definition erf_acc (F : TF) (e : R) : Prop := computes e any (t_erf F) erfR.
Definition tanh_acc (F : TF) (e : R) : Prop := computes e any (t_tanh F) tanh.
Definition atan_acc (F : TF) (e : R) : Prop := computes e any (t_atan F) atan.
Definition exp_acc (F : TF) (e : R) : Prop := computes e nonpos (t_exp F) exp.
Definition expm1_acc (F : TF) (e : R) : Prop := computes e nonpos (t_expm1 F) (fun r => exp r - 1).
Definition log_acc (F : TF) (e : R) : Prop := computes e (fun r => 0 < r) (t_log F) ln.
Definition pow_acc (F : TF) (e : R) : Prop := forall c, finite c ->
  computes e (fun r => 0 < r /\ Rpower r (B2R c) <= huge) (fun x => t_pow F x c) (fun r => Rpower r (B2R c)).
(** a power of a positive argument is not negative *)
Definition pow_sign (F : TF) : Prop := forall x c, finite x -> finite c -> 0 < B2R x -> 0 <= B2R (t_pow F x c).
Definition const_acc (e : R) (c : b64) (r : R) : Prop := near e 0 c r.
Definition incgamma_acc (F : TF) (e : R) : Prop := forall a, finite a -> 0 < B2R a ->
  computes e (fun r => 0 < r) (t_incgamma F a) (PG (B2R a)).
Definition incbeta_acc (F : TF) (e : R) : Prop := forall a b, finite a -> finite b -> 0 < B2R a -> 0 < B2R b ->
  computes e (fun r => 0 < r < 1) (t_incbeta F a b) (IB (B2R a) (B2R b)).
(** x and its standardised value lie within the range that is followed *)
Definition reach (mu sigma x : R) : Prop := Rabs (x - mu) <= huge /\ Rabs ((x - mu) / sigma) <= huge.
