(** Independent statements about Student quantiles by Taylor refinement (G. W. Hill,
    Algorithm 396 and its 1981 remark): the map that one refinement step should be, the
    published starting value for extreme tails, and the convergence exponents. *)
From Coq Require Import Reals.
From Verif Require Import SpecSF NormR.
Local Open Scope R_scope.

(** One step of the second-order Taylor series of the quantile function about [v], for the
    equation [t_cdf d v = q]: with [x] the Newton correction, [v + x + x^2 (d+1) v / (2 (d+v^2))]. *)
Definition taylor_step (d q v : R) : R :=
  let x := (q - t_cdf d v) / t_pdf d v in
  v + x + x ^ 2 * ((d + 1) * v / (2 * (d + v ^ 2))).
Fixpoint taylor_iter (n : nat) (d q v : R) : R :=
  match n with O => v | S n => taylor_iter n d q (taylor_step d q v) end.
(** 0, 1, 4, 13, 40, 121, 364, ...: after n steps of a third-order method the relative
    error is the initial one to this power *)
Fixpoint cubexp (n : nat) : nat := match n with O => 0 | S n => 3 * cubexp n + 1 end.
Definition cub_const (d m : R) : R := (d + 1) * (2 * d + 1) / (6 * (d + m ^ 2)).

(** Hill's coefficients and starting value for the two-tailed probability [P] *)
Definition hill_a (d : R) : R := / (d - 1 / 2).
Definition hill_b (d : R) : R := 48 / hill_a d ^ 2.
Definition hill_c (d : R) : R :=
  ((20700 * hill_a d / hill_b d - 98) * hill_a d - 16) * hill_a d + 9636 / 100.
Definition hill_d (d : R) : R :=
  ((945 / 10 / (hill_b d + hill_c d) - 3) / hill_b d + 1) * sqrt (hill_a d * PI / 2) * d.
Definition hill_y (d P : R) : R := Rpower (hill_d d * P) (2 / d).
Definition hill_den (d P : R) : R :=
  (d + 6) / (d * hill_y d P) - 89 / 1000 * hill_d d - 822 / 1000.
Definition hill_start (d P : R) : R :=
  ((1 / (hill_den d P * (d + 2) * 3) + 5 / 10 / (d + 4)) * hill_y d P - 1)
    * (d + 1) / (d + 2) + 1 / hill_y d P.
(** a lower-tail probability in the range where the starting value is used; [eps] is the smallest
    accepted number of degrees of freedom *)
Definition hill_tail (eps d p : R) : Prop :=
  eps <= d /\ 1 / 2 < d /\ d <> 1 /\ d <> 2 /\ 0 < p < 1 / 2 /\ 0 < hill_d d /\
  hill_y d (2 * p) <= 5 / 100 + hill_a d /\ hill_den d (2 * p) <> 0 /\ 0 <= hill_start d (2 * p).

(** Hill's asymptotic expansion about the normal quantile [x], for probabilities outside the tails *)
Definition hill_c5 (d x : R) : R :=
  if Rlt_dec d 5 then hill_c d + 3 / 10 * (d - 45 / 10) * (x + 6 / 10) else hill_c d.
Definition hill_cx (d x : R) : R :=
  (((5 / 100 * hill_d d * x - 5) * x - 7) * x - 2) * x + hill_b d + hill_c5 d x.
Definition hill_u (d x : R) : R :=
  (((((4 / 10 * x ^ 2 + 63 / 10) * x ^ 2 + 36) * x ^ 2 + 945 / 10) / hill_cx d x - x ^ 2 - 3) / hill_b d + 1) * x.
Definition hill_w (d x : R) : R := hill_a d * hill_u d x ^ 2.
(** the exponential, or its series below 1/10 (Remark on Algorithm 396) *)
Definition hill_expand (d x : R) : R :=
  if Rlt_dec (1 / 10) (hill_w d x) then exp (hill_w d x) - 1
  else ((hill_w d x + 4) * hill_w d x + 12) * hill_w d x ^ 2 / 24 + hill_w d x.
(** a probability in the range where the expansion is used, with normal quantile [x] *)
Definition hill_middle (eps d p x : R) : Prop :=
  eps <= d /\ 1 / 2 < d /\ d <> 1 /\ d <> 2 /\ 0 < p < 1 /\ norm_cdf 0 1 x = p /\ 0 < hill_d d /\
  5 / 100 + hill_a d < hill_y d (2 * p) /\ hill_cx d x <> 0.
