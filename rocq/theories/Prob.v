(** Cumulative distribution functions: /repo/include/stats_incl/prob/*.ipp.
    [pnorm] comes first because [dens/dnorm.ipp] calls it.  Functions that call
    densities ([pbinom]) are in [Dens.v]. *)
From Coq Require Import ZArith QArith Bool.
From Verif Require Import Num Sanity.
Local Open Scope num_scope.

Section Prob.
Context {T : Type} {N : Num T}.
Implicit Types x p : T.
Implicit Types lf : bool.

(** prob/pnorm.ipp 34-37 *)
Definition pnorm_compute z : T := lit (1#2) * (ofZ 1 + erf (z / SQRT_2)).
(** prob/pnorm.ipp 42-69 *)
Definition pnorm_limit_vals x mu sigma : T :=
  if all_posinf2 x mu || all_neginf2 x mu then nan else
  if is_posinf sigma then
    (if is_posinf x || is_neginf mu then ofZ 1 else
     if is_neginf x || is_posinf mu then ofZ 0 else lit (1#2)) else
  if sigma =? ofZ 0 then (if x >=? mu then ofZ 1 else ofZ 0) else
  if is_posinf x || is_neginf mu then ofZ 1 else
  if is_neginf x || is_posinf mu then ofZ 0 else
  ofZ 0.
(** prob/pnorm.ipp 74-83, 98-104 *)
Definition pnorm x mu sigma lf : T :=
  if negb (norm_sanity3 x mu sigma) then nan else
  if any_inf3 x mu sigma || (sigma =? ofZ 0) then log_if (pnorm_limit_vals x mu sigma) lf else
  log_if (pnorm_compute ((x - mu) / sigma)) lf.
(** prob/pnorm.ipp 107-113, the overload without parameters *)
Definition pnorm_std x lf : T := pnorm x (ofZ 0) (ofZ 1) lf.

(** prob/pbern.ipp 34-43, 48-55 *)
Definition pbern_compute (x : Z) prob : T :=
  if (x <? 0)%Z then ofZ 0 else
  if (1 <=? x)%Z then ofZ 1 else ofZ 1 - prob.
Definition pbern (x : Z) prob lf : T :=
  if negb (bern_sanity prob) then nan else log_if (pbern_compute x prob) lf.

(** prob/pradem.ipp 34-43, 48-55 *)
Definition pradem_compute (x : Z) prob : T :=
  if (x <? -1)%Z then ofZ 0 else
  if (1 <=? x)%Z then ofZ 1 else ofZ 1 - prob.
Definition pradem (x : Z) prob lf : T :=
  if negb (radem_sanity prob) then nan else log_if (pradem_compute x prob) lf.

(** prob/pbeta.ipp 34-38 *)
Definition pbeta_compute x a b : T := incbeta a b x.
(** prob/pbeta.ipp 43-58 *)
Definition pbeta_limit_vals x a b : T :=
  if (a =? ofZ 0) && (b =? ofZ 0) then lit (1#2) else
  if (a =? ofZ 0) || (is_posinf b && negb (is_posinf a)) then ofZ 1 else
  if (b =? ofZ 0) || (is_posinf a && negb (is_posinf b)) then ofZ 0 else
  if x <? lit (1#2) then ofZ 0 else ofZ 1.
(** prob/pbeta.ipp 63-78 *)
Definition pbeta x a b lf : T :=
  if negb (beta_sanity3 x a b) then nan else
  if x <=? ofZ 0 then log_zero_if lf else
  if x >=? ofZ 1 then log_if (ofZ 1) lf else
  if (a =? ofZ 0) || (b =? ofZ 0) || any_posinf2 a b then log_if (pbeta_limit_vals x a b) lf else
  log_if (pbeta_compute x a b) lf.

(** prob/pcauchy.ipp 34-38 *)
Definition pcauchy_compute z : T := lit (1#2) + atan z / PI.
(** prob/pcauchy.ipp 43-63 *)
Definition pcauchy_limit_vals x mu sigma : T :=
  if is_posinf sigma then
    (if any_inf2 x mu then nan else lit (1#2)) else
  if all_posinf2 x mu || all_neginf2 x mu then nan else
  if is_posinf x && is_neginf mu then ofZ 1 else
  if is_neginf x && is_posinf mu then ofZ 0 else
  if is_neginf x || is_posinf mu then ofZ 0 else ofZ 1.
(** prob/pcauchy.ipp 68-78 *)
Definition pcauchy x mu sigma lf : T :=
  if negb (cauchy_sanity3 x mu sigma) then nan else
  if any_inf3 x mu sigma then log_if (pcauchy_limit_vals x mu sigma) lf else
  log_if (pcauchy_compute ((x - mu) / sigma)) lf.

(** prob/pchisq.ipp 34-38 *)
Definition pchisq_compute x dof : T := incgamma (dof / ofZ 2) (x / ofZ 2).
(** prob/pchisq.ipp 43-61 *)
Definition pchisq x dof lf : T :=
  if negb (chisq_sanity2 x dof) then nan else
  if epsilon >? x then log_zero_if lf else
  if dof =? ofZ 0 then log_one_if lf else
  if is_posinf x then log_one_if lf else
  if is_posinf dof then log_zero_if lf else
  log_if (pchisq_compute x dof) lf.

(** prob/pexp.ipp 34-43 *)
Definition pexp_compute x rate : T :=
  if x <=? ofZ 0 then ofZ 0 else
  if is_posinf rate then ofZ 1 else
  - expm1 (- rate * x).
(** prob/pexp.ipp 48-55 *)
Definition pexp x rate lf : T :=
  if negb (exp_sanity2 x rate) then nan else log_if (pexp_compute x rate) lf.

(** prob/pf.ipp 34-37 *)
Definition pf_compute x a b : T := incbeta a b (x / (ofZ 1 + x)).
(** prob/pf.ipp 42-57 *)
Definition pf_limit_vals_dof x df1 df2 lf : T :=
  if all_posinf2 df1 df2 then
    (if x >? ofZ 1 then log_one_if lf else
     if x =? ofZ 1 then log_if (lit (1#2)) lf else log_zero_if lf) else
  if is_posinf df1 then ofZ 1 - pchisq (df2 / x) df2 lf else
  pchisq (x * df1) df1 lf.
(** prob/pf.ipp 62-76 *)
Definition pf x df1 df2 lf : T :=
  if negb (f_sanity3 x df1 df2) then nan else
  if epsilon >? x then log_zero_if lf else
  if is_posinf x then log_one_if lf else
  if any_posinf2 df1 df2 then pf_limit_vals_dof x df1 df2 lf else
  log_if (pf_compute (df1 * x / df2) (df1 / ofZ 2) (df2 / ofZ 2)) lf.

(** prob/pgamma.ipp 34-38 *)
Definition pgamma_compute x shape scale : T := incgamma shape (x / scale).
(** prob/pgamma.ipp 43-59 *)
Definition pgamma_limit_vals x shape scale : T :=
  if shape =? ofZ 0 then (if is_posinf scale then ofZ 0 else ofZ 1) else
  if is_posinf x && all_finite2 shape scale then ofZ 1 else
  if all_posinf2 x shape then ofZ 1 else ofZ 0.
(** prob/pgamma.ipp 64-80 *)
Definition pgamma x shape scale lf : T :=
  if negb (gamma_sanity3 x shape scale) then nan else
  if all_posinf2 x scale then nan else
  if epsilon >? x then log_zero_if lf else
  if any_posinf3 x shape scale || (shape =? ofZ 0) then log_if (pgamma_limit_vals x shape scale) lf else
  log_if (pgamma_compute x shape scale) lf.

(** prob/pinvgamma.ipp 34-38 *)
Definition pinvgamma_compute recip_inp shape recip_par lf : T :=
  log_if (ofZ 1 - pgamma recip_inp shape recip_par false) lf.
(** prob/pinvgamma.ipp 43-53 *)
Definition pinvgamma_limit_vals recip_inp shape rate lf : T :=
  if rate =? ofZ 0 then pinvgamma_compute recip_inp shape pinf lf else
  if is_posinf rate then pinvgamma_compute recip_inp shape (ofZ 0) lf else
  pinvgamma_compute recip_inp shape (ofZ 1 / rate) lf.
(** prob/pinvgamma.ipp 58-69 *)
Definition pinvgamma x shape rate lf : T :=
  if negb (invgamma_sanity3 x shape rate) then nan else
  if x <? ofZ 0 then log_zero_if lf else
  pinvgamma_limit_vals
    (if x =? ofZ 0 then pinf else if is_posinf x then ofZ 0 else ofZ 1 / x) shape rate lf.

(** prob/pinvgauss.ipp 34-53; [pnorm(z)] is the one-argument overload *)
Definition pinvgauss_term_1 x mu lambda : T :=
  pnorm_std (sqrt (lambda / x) * (x / mu - ofZ 1)) false.
Definition pinvgauss_term_2 x mu lambda : T :=
  exp (ofZ 2 * lambda / mu) * pnorm_std (- sqrt (lambda / x) * (x / mu + ofZ 1)) false.
Definition pinvgauss_compute x mu lambda : T :=
  pinvgauss_term_1 x mu lambda + pinvgauss_term_2 x mu lambda.
(** prob/pinvgauss.ipp 58-79 *)
Definition pinvgauss_limit_vals x mu lambda : T :=
  if (x =? ofZ 0) && ((mu =? ofZ 0) || (lambda =? ofZ 0)) then ofZ 1 else
  if is_posinf x then ofZ 1 else
  if is_posinf lambda then (if x >=? mu then ofZ 1 else ofZ 0) else
  if lambda =? ofZ 0 then ofZ 1 else
  if mu =? ofZ 0 then ofZ 1 else ofZ 0.
(** prob/pinvgauss.ipp 84-96 *)
Definition pinvgauss x mu lambda lf : T :=
  if negb (invgauss_sanity3 x mu lambda) then nan else
  if x <? ofZ 0 then log_zero_if lf else
  if any_inf3 x mu lambda || (x =? ofZ 0) || (mu =? ofZ 0) || (lambda =? ofZ 0)
  then log_if (pinvgauss_limit_vals x mu lambda) lf else
  log_if (pinvgauss_compute x mu lambda) lf.

(** prob/plaplace.ipp 34-37 *)
Definition plaplace_compute z sigma : T :=
  lit (1#2) + lit (1#2) * ofZ (sgn z) * (ofZ 1 - exp (- abs z / sigma)).
(** prob/plaplace.ipp 42-65 *)
Definition plaplace_limit_vals x mu sigma : T :=
  if all_posinf2 x mu || all_neginf2 x mu then nan else
  if is_posinf sigma then (if any_inf2 x mu then nan else lit (1#2)) else
  if sigma =? ofZ 0 then lit (1#2) + lit (1#2) * ofZ (sgn (x - mu)) else
  if is_posinf x || is_neginf mu then ofZ 1 else
  if is_neginf x || is_posinf mu then ofZ 0 else
  ofZ 0.
(** prob/plaplace.ipp 70-80 *)
Definition plaplace x mu sigma lf : T :=
  if negb (laplace_sanity3 x mu sigma) then nan else
  if any_inf3 x mu sigma || (sigma =? ofZ 0) then log_if (plaplace_limit_vals x mu sigma) lf else
  log_if (plaplace_compute (x - mu) sigma) lf.

(** prob/plnorm.ipp 34-43 *)
Definition plnorm x mu sigma lf : T :=
  if negb (lnorm_sanity3 x mu sigma) then nan else
  if epsilon >? x then log_zero_if lf else
  pnorm (log x) mu sigma lf.

(** prob/plogis.ipp 34-37 *)
Definition plogis_compute z : T := lit (1#2) * (ofZ 1 + tanh z).
(** prob/plogis.ipp 42-65 *)
Definition plogis_limit_vals x mu sigma : T :=
  if all_posinf2 x mu || all_neginf2 x mu then nan else
  if is_posinf sigma then (if any_inf2 x mu then nan else lit (1#2)) else
  if is_posinf x || is_neginf mu then ofZ 1 else
  if is_neginf x || is_posinf mu then ofZ 0 else
  if sigma =? ofZ 0 then lit (1#2) + lit (1#2) * ofZ (sgn (x - mu)) else
  ofZ 0.
(** prob/plogis.ipp 70-79 *)
Definition plogis x mu sigma lf : T :=
  if negb (logis_sanity3 x mu sigma) then nan else
  if any_inf3 x mu sigma || (sigma =? ofZ 0) then log_if (plogis_limit_vals x mu sigma) lf else
  log_if (plogis_compute ((x - mu) / (ofZ 2 * sigma))) lf.

(** prob/ppois.ipp 34-47.  The C++ recursion is bounded by [x]; [fuel] makes it
    structural and [None] stands for "still running". *)
Fixpoint ppois_recur (fuel : nat) (x : Z) rate (r : Z) : option T :=
  match fuel with
  | O => None
  | S fuel =>
    if (x =? 0)%Z then Some (ofZ 1) else
    if (x =? 1)%Z then Some (ofZ 1 + rate) else
    if (r =? 0)%Z then option_map (add (ofZ 1)) (ppois_recur fuel x rate (r + 1)%Z) else
    if (r <? x)%Z then
      option_map (add (powZ rate r / factorial r)) (ppois_recur fuel x rate (r + 1)%Z)
    else Some (powZ rate r / factorial r)
  end.
(** prob/ppois.ipp 52-59.  [T(x+1)]: see [Ints.v] for the overflow of [x+1].
    The fuel [x+2] always suffices ([Discrete.ppois_recur_total]). *)
Definition ppois_compute (x : Z) rate : T :=
  if (rate >? ofZ 10) || (15 <? x)%Z
  then ofZ 1 - incgamma (ofZ (x + 1)) rate
  else match ppois_recur (Z.to_nat x + 2) x rate 0 with
       | Some v => exp (- rate) * v
       | None => nan
       end.
(** prob/ppois.ipp 64-76 *)
Definition ppois (x : Z) rate lf : T :=
  if negb (pois_sanity rate) then nan else
  if (x <? 0)%Z then log_zero_if lf else
  if is_posinf rate then log_zero_if lf else
  log_if (ppois_compute x rate) lf.

(** prob/pt.ipp 34-56 *)
Definition pt_main_2 z r : T := pbeta (ofZ 1 / z) (r / ofZ 2) (lit (1#2)) false / ofZ 2.
Definition pt_main_1 z r : T :=
  lit (1#2) - pbeta (z / (r + z)) (lit (1#2)) (r / ofZ 2) false / ofZ 2.
Definition pt_main x r : T :=
  if r >? x * x then
    (if x >? ofZ 0 then ofZ 1 - pt_main_1 (x * x) r else pt_main_1 (x * x) r)
  else
    (if x >? ofZ 0 then ofZ 1 - pt_main_2 (ofZ 1 + (x / r) * x) r
     else pt_main_2 (ofZ 1 + (x / r) * x) r).
(** prob/pt.ipp 61-69 *)
Definition pt_compute x r : T :=
  if r =? ofZ 1 then pcauchy_compute x else
  if r =? ofZ 2 then lit (1#2) + x / (ofZ 2 * sqrt (x * x + ofZ 2)) else
  pt_main x r.
(** prob/pt.ipp 74-88 *)
Definition pt x dof lf : T :=
  if negb (t_sanity2 x dof) then nan else
  if is_posinf x then log_one_if lf else
  if is_neginf x then log_zero_if lf else
  if is_posinf dof then pnorm x (ofZ 0) (ofZ 1) lf else
  log_if (pt_compute x dof) lf.

(** prob/punif.ipp 34-42 *)
Definition punif_compute x a b : T :=
  if x <=? a then ofZ 0 else
  if x >=? b then ofZ 1 else (x - a) / (b - a).
(** prob/punif.ipp 47-56 *)
Definition punif x a b lf : T :=
  if negb (unif_sanity3 x a b) then nan else
  if all_inf2 a b then nan else
  log_if (punif_compute x a b) lf.

(** prob/pweibull.ipp 34-38 *)
Definition pweibull_compute x shape : T := - expm1 (- pow x shape).
(** prob/pweibull.ipp 43-62 *)
Definition pweibull_limit_vals x shape scale : T :=
  if is_posinf x then (if is_posinf scale then nan else ofZ 1) else
  if is_posinf scale then ofZ 0 else
  if is_posinf shape then
    (if x / scale >? ofZ 1 then ofZ 1 else
     if x / scale =? ofZ 1 then - expm1 (ofZ (-1)) else ofZ 0) else
  ofZ 0.
(** prob/pweibull.ipp 67-80 *)
Definition pweibull x shape scale lf : T :=
  if negb (weibull_sanity3 x shape scale) then nan else
  if x <? epsilon then log_zero_if lf else
  if any_inf3 x shape scale then log_if (pweibull_limit_vals x shape scale) lf else
  log_if (pweibull_compute (x / scale) shape) lf.
End Prob.
