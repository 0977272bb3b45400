(** Specification, continued: the documented densities and distribution
    functions that need the gamma, beta and error functions.  [Gam], [PG],
    [Beta], [IB] are the gamma function, the regularised lower incomplete gamma
    function, the beta function and the regularised incomplete beta function,
    built as integrals in [GammaFn.v] and [BetaFn.v]; [norm_cdf] is in [NormR.v].
    Nothing here refers to the model of the code. *)
From Coq Require Import Reals Lra.
From Coquelicot Require Import Coquelicot.
From Verif Require Import GammaFn BetaFn NormR.
Local Open Scope R_scope.

(** docs/source/api/gamma.rst 23, 74 *)
Definition gamma_pdf (k th x : R) : R := Rpower x (k - 1) * exp (- x / th) / (Rpower th k * Gam k).
Definition gamma_cdf (k th x : R) : R := PG k (x / th).
(** docs/source/api/chi-squared.rst 23, 74 *)
Definition chisq_pdf (n x : R) : R :=
  Rpower x (n / 2 - 1) * exp (- x / 2) / (Rpower 2 (n / 2) * Gam (n / 2)).
Definition chisq_cdf (n x : R) : R := PG (n / 2) (x / 2).
(** docs/source/api/inverse-gamma.rst 23, 74 *)
Definition invgamma_pdf (a b x : R) : R := Rpower b a / Gam a * Rpower x (- a - 1) * exp (- b / x).
Definition invgamma_cdf (a b x : R) : R := 1 - PG a (b / x).
(** docs/source/api/beta.rst 23, 74 (inside (0,1)) *)
Definition beta_pdf (a b x : R) : R := 1 / Beta a b * Rpower x (a - 1) * Rpower (1 - x) (b - 1).
Definition beta_cdf (a b x : R) : R := IB a b x.
(** docs/source/api/f.rst 23, 76 *)
Definition f_pdf (d1 d2 x : R) : R :=
  1 / Beta (d1 / 2) (d2 / 2) * Rpower (d1 / d2) (d1 / 2) * Rpower x (d1 / 2 - 1)
  * Rpower (1 + d1 / d2 * x) (- ((d1 + d2) / 2)).
Definition f_cdf (d1 d2 x : R) : R := IB (d1 / 2) (d2 / 2) (d1 * x / (d2 + d1 * x)).
(** docs/source/api/t.rst 23; the distribution function is one half plus the
    integral of the density from 0 (the hypergeometric form printed there has
    misprints) *)
Definition t_pdf (n x : R) : R :=
  Gam ((n + 1) / 2) / (sqrt (n * PI) * Gam (n / 2)) * Rpower (1 + x ^ 2 / n) (- ((n + 1) / 2)).
Definition t_cdf (n x : R) : R := 1 / 2 + RInt (t_pdf n) 0 x.
(** docs/source/api/inverse-gaussian.rst 76 *)
Definition invgauss_cdf (mu l x : R) : R :=
  norm_cdf 0 1 (sqrt (l / x) * (x / mu - 1))
  + exp (2 * l / mu) * norm_cdf 0 1 (- sqrt (l / x) * (x / mu + 1)).
