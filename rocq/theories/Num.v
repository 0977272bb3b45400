(** The arithmetic a StatsLib function template is instantiated with.

    The library is written over a template parameter [T].  [Num T] collects
    every operation the scalar code applies to values of type [T]:
    the operators, [STLIM<T>] (std::numeric_limits), the predicates of
    gcem::internal, and the functions of [stmath] / [gcem].
    (/repo/include/stats_incl/misc/statslib_options.hpp 40-90: [stmath] is gcem or
    std, [GCINT] is gcem::internal, [STLIM] is std::numeric_limits.)

    Simplifications common to all scalar definitions:
    - [llint_t] (64-bit signed) is [Z]; overflow is treated separately in [Ints.v];
    - the implicit conversion of an integer to [T] is [ofZ];
    - a floating literal such as [T(0.5)] is [lit] applied to its rational value;
    - the [_type_check] wrappers, which only convert the arguments to the common
      type, are the identity here; the conversions are the subject of [Types.v]. *)

From Coq Require Import ZArith QArith Bool.

Class Num (T : Type) := {
  add : T -> T -> T;
  sub : T -> T -> T;
  mul : T -> T -> T;
  div : T -> T -> T;
  neg : T -> T;
  abs : T -> T;
  ltb : T -> T -> bool;          (* x < y  *)
  leb : T -> T -> bool;          (* x <= y *)
  eqb : T -> T -> bool;          (* x == y *)
  ofZ : Z -> T;                  (* T(n), n an integer *)
  lit : Q -> T;                  (* T(0.5) etc. *)
  nan : T;                       (* STLIM<T>::quiet_NaN() *)
  pinf : T;                      (* STLIM<T>::infinity() *)
  epsilon : T;                   (* STLIM<T>::epsilon() *)
  tmin : T;                      (* STLIM<T>::min() *)
  is_nan : T -> bool;
  is_posinf : T -> bool;
  is_neginf : T -> bool;
  exp : T -> T;
  log : T -> T;
  expm1 : T -> T;
  log1p : T -> T;
  sqrt : T -> T;
  pow : T -> T -> T;
  powZ : T -> Z -> T;            (* stmath::pow(T, llint_t) *)
  atan : T -> T;
  tan : T -> T;
  tanh : T -> T;
  erf : T -> T;
  erf_inv : T -> T;
  lgamma : T -> T;
  incgamma : T -> T -> T;        (* gcem::incomplete_gamma *)
  incgamma_inv : T -> T -> T;    (* gcem::incomplete_gamma_inv *)
  incbeta : T -> T -> T -> T;    (* gcem::incomplete_beta *)
  incbeta_inv : T -> T -> T -> T;(* gcem::incomplete_beta_inv *)
  log_binom : Z -> Z -> T;       (* gcem::log_binomial_coef *)
  factorial : Z -> T;            (* gcem::factorial, converted to T *)
  PI : T;                        (* GCEM_PI *)
  LOG_2PI : T;
  LOG_2 : T;
  LOG_PI : T;
  SQRT_2 : T;
  SQRT_HALF_PI : T
}.

Declare Scope num_scope.
Delimit Scope num_scope with num.
Infix "+" := add : num_scope.
Infix "-" := sub : num_scope.
Infix "*" := mul : num_scope.
Infix "/" := div : num_scope.
Notation "- x" := (neg x) : num_scope.
Infix "<?" := ltb : num_scope.
Infix "<=?" := leb : num_scope.
Infix "=?" := eqb : num_scope.
Notation "x >? y" := (ltb y x) (at level 70, no associativity) : num_scope.
Notation "x >=? y" := (leb y x) (at level 70, no associativity) : num_scope.

Section Preds.
Context {T : Type} {N : Num T}.

(** gcem::internal::is_inf and the any_/all_ combinations the code uses. *)
Definition is_inf (x : T) : bool := is_neginf x || is_posinf x.
Definition any_nan2 (x y : T) : bool := is_nan x || is_nan y.
Definition any_inf2 (x y : T) : bool := is_inf x || is_inf y.
Definition any_inf3 (x y z : T) : bool := is_inf x || is_inf y || is_inf z.
Definition any_posinf2 (x y : T) : bool := is_posinf x || is_posinf y.
Definition any_posinf3 (x y z : T) : bool := is_posinf x || is_posinf y || is_posinf z.
Definition all_posinf2 (x y : T) : bool := is_posinf x && is_posinf y.
Definition all_neginf2 (x y : T) : bool := is_neginf x && is_neginf y.
Definition all_inf2 (x y : T) : bool := is_inf x && is_inf y.
Definition is_finite (x : T) : bool := negb (is_nan x) && negb (is_inf x).
Definition all_finite2 (x y : T) : bool := is_finite x && is_finite y.

(** misc/internal_fns/log_if.hpp 31-56, misc/internal_fns/exp_if.hpp 31-38 *)
Definition log_if (x : T) (log_form : bool) : T := if log_form then log x else x.
Definition log_zero_if (log_form : bool) : T := if log_form then neg pinf else ofZ 0.
Definition log_one_if (log_form : bool) : T := if log_form then ofZ 0 else ofZ 1.
Definition exp_if (x : T) (exp_form : bool) : T := if exp_form then exp x else x.

(** gcem::sgn: an [int] in {1,-1,0}; both comparisons false gives 0. *)
Definition sgn (x : T) : Z :=
  if ltb (ofZ 0) x then 1%Z else if ltb x (ofZ 0) then (-1)%Z else 0%Z.

(** stmath::max(x,y) = x < y ? y : x *)
Definition tmax (x y : T) : T := if ltb x y then y else x.
End Preds.
