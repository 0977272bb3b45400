(** Specification: the textbook formulas of the documentation
    (/repo/docs/source/api/*.rst), as functions on the reals.  Nothing here
    refers to the model of the code. *)
From Coq Require Import Reals Lra.
Local Open Scope R_scope.

(** docs/source/api/exponential.rst 23, 74, 125 *)
Definition exp_pdf (rate x : R) : R := rate * exp (- rate * x).
Definition exp_cdf (rate x : R) : R := 1 - exp (- rate * x).
Definition exp_qf (rate p : R) : R := - ln (1 - p) / rate.

(** docs/source/api/uniform.rst 23, 74, 125 (inside [a,b]) *)
Definition unif_pdf (a b : R) : R := 1 / (b - a).
Definition unif_cdf (a b x : R) : R := (x - a) / (b - a).
Definition unif_qf (a b p : R) : R := a + p * (b - a).

(** sign function of laplace.rst *)
Definition Rsign (x : R) : R := if Rlt_dec 0 x then 1 else if Rlt_dec x 0 then -1 else 0.

(** docs/source/api/laplace.rst 23, 74, 125 *)
Definition laplace_pdf (mu sigma x : R) : R := 1 / (2 * sigma) * exp (- Rabs (x - mu) / sigma).
Definition laplace_cdf (mu sigma x : R) : R :=
  1 / 2 + 1 / 2 * Rsign (x - mu) * (1 - exp (- Rabs (x - mu) / sigma)).
Definition laplace_qf (mu sigma p : R) : R :=
  mu - sigma * Rsign (p - 1 / 2) * ln (1 - 2 * Rabs (p - 1 / 2)).

(** docs/source/api/logistic.rst 23, 74, 125 *)
Definition logis_pdf (mu sigma x : R) : R :=
  exp (- ((x - mu) / sigma)) / (sigma * (1 + exp (- ((x - mu) / sigma))) ^ 2).
Definition logis_cdf (mu sigma x : R) : R := 1 / (1 + exp (- ((x - mu) / sigma))).
Definition logis_qf (mu sigma p : R) : R := mu + sigma * ln (p / (1 - p)).

(** docs/source/api/cauchy.rst 23, 74, 125 *)
Definition cauchy_pdf (mu sigma x : R) : R := 1 / (PI * sigma * (1 + ((x - mu) / sigma) ^ 2)).
Definition cauchy_cdf (mu sigma x : R) : R := 1 / 2 + 1 / PI * atan ((x - mu) / sigma).
Definition cauchy_qf (mu sigma p : R) : R := mu + sigma * tan (PI * (p - 1 / 2)).

(** docs/source/api/weibull.rst 23, 74, 125 *)
Definition weibull_pdf (k theta x : R) : R :=
  k / theta * Rpower (x / theta) (k - 1) * exp (- Rpower (x / theta) k).
Definition weibull_cdf (k theta x : R) : R := 1 - exp (- Rpower (x / theta) k).
Definition weibull_qf (k theta p : R) : R := theta * Rpower (- ln (1 - p)) (1 / k).

(** docs/source/api/normal.rst 23; log-normal.rst 23 *)
Definition norm_pdf (mu sigma x : R) : R :=
  1 / (sqrt (2 * PI) * sigma) * exp (- ((x - mu) ^ 2 / (2 * sigma ^ 2))).
Definition lnorm_pdf (mu sigma x : R) : R :=
  1 / x * (1 / (sqrt (2 * PI) * sigma)) * exp (- ((ln x - mu) ^ 2 / (2 * sigma ^ 2))).

(** docs/source/api/inverse-gaussian.rst 23 *)
Definition invgauss_pdf (mu lambda x : R) : R :=
  sqrt (lambda / (2 * PI * x ^ 3)) * exp (- (lambda * (x - mu) ^ 2 / (2 * mu ^ 2 * x))).

(** docs/source/api/bernoulli.rst 23, 74, rademacher.rst 23, 77 *)
Definition bern_pmf (p : R) (x : Z) : R :=
  if Z.eqb x 1 then p else if Z.eqb x 0 then 1 - p else 0.
Definition radem_pmf (p : R) (x : Z) : R :=
  if Z.eqb x 1 then p else if Z.eqb x (-1) then 1 - p else 0.

(** docs/source/api/binomial.rst 23, poisson.rst 23 *)
Definition binom_pmf (n : nat) (p : R) (k : nat) : R :=
  if Nat.leb k n then Binomial.C n k * p ^ k * (1 - p) ^ (n - k) else 0.
Definition pois_pmf (rate : R) (k : nat) : R := rate ^ k * exp (- rate) / INR (fact k).
