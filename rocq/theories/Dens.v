(** Densities and probability mass functions:
    /repo/include/stats_incl/dens/*.ipp (univariate). *)
From Coq Require Import ZArith QArith Bool.
From Verif Require Import Num Sanity Prob.
Local Open Scope num_scope.

Section Dens.
Context {T : Type} {N : Num T}.
Implicit Types x p : T.
Implicit Types lf : bool.

(** dens/dbern.ipp 34-43, 48-55 *)
Definition dbern_compute (x : Z) prob : T :=
  if (x =? 1)%Z then prob else
  if (x =? 0)%Z then ofZ 1 - prob else ofZ 0.
Definition dbern (x : Z) prob lf : T :=
  if negb (bern_sanity prob) then nan else log_if (dbern_compute x prob) lf.

(** dens/dradem.ipp 34-43, 48-55 *)
Definition dradem_compute (x : Z) prob : T :=
  if (x =? 1)%Z then prob else
  if (x =? -1)%Z then ofZ 1 - prob else ofZ 0.
Definition dradem (x : Z) prob lf : T :=
  if negb (radem_sanity prob) then nan else log_if (dradem_compute x prob) lf.

(** dens/dbeta.ipp 34-39 *)
Definition dbeta_log_compute x a b : T :=
  - (lgamma a + lgamma b - lgamma (a + b))
  + (a - ofZ 1) * log x + (b - ofZ 1) * log (ofZ 1 - x).
(** dens/dbeta.ipp 44-65 *)
Definition dbeta_limit_vals x a b : T :=
  if (a =? ofZ 0) && (b =? ofZ 0) then
    (if (x =? ofZ 0) || (x =? ofZ 1) then pinf else ofZ 0) else
  if (a =? ofZ 0) || (is_posinf b && negb (is_posinf a)) then
    (if x =? ofZ 0 then pinf else ofZ 0) else
  if (b =? ofZ 0) || (is_posinf a && negb (is_posinf b)) then
    (if x =? ofZ 1 then pinf else ofZ 0) else
  if x =? lit (1#2) then pinf else ofZ 0.
(** dens/dbeta.ipp 70-96 *)
Definition dbeta x a b lf : T :=
  if negb (beta_sanity3 x a b) then nan else
  if (x <? ofZ 0) || (x >? ofZ 1) then log_zero_if lf else
  if (a =? ofZ 0) || (b =? ofZ 0) || any_posinf2 a b then log_if (dbeta_limit_vals x a b) lf else
  if x =? ofZ 0 then
    (if a <? ofZ 1 then pinf else
     if a >? ofZ 1 then log_zero_if lf else log_if b lf) else
  if x =? ofZ 1 then
    (if b <? ofZ 1 then pinf else
     if b >? ofZ 1 then log_zero_if lf else log_if a lf) else
  exp_if (dbeta_log_compute x a b) (negb lf).

(** dens/dbinom.ipp 34-45 *)
Definition dbinom_log_compute (x n : Z) prob : T :=
  if (x =? 0)%Z then ofZ n * log (ofZ 1 - prob) else
  if (x =? n)%Z then ofZ x * log prob else
  log_binom n x + ofZ x * log prob + ofZ (n - x) * log (ofZ 1 - prob).
(** dens/dbinom.ipp 50-56 *)
Definition dbinom_limit_vals (x : Z) : T := if (x =? 0)%Z then ofZ 1 else ofZ 0.
(** dens/dbinom.ipp 61-80 (is_nan of an integer is false) *)
Definition dbinom (x n : Z) prob lf : T :=
  if negb (binom_sanity n prob) then nan else
  if ((x <? 0) || (n <? x))%Z then log_zero_if lf else
  if (n =? 0)%Z then log_if (dbinom_limit_vals x) lf else
  if (n =? 1)%Z then dbern x prob lf else
  exp_if (dbinom_log_compute x n prob) (negb lf).

(** dens/dcauchy.ipp 34-38 *)
Definition dcauchy_compute z sigma : T := ofZ 1 / (sigma * PI * (ofZ 1 + z * z)).
(** dens/dcauchy.ipp 43-61 *)
Definition dcauchy_limit_vals x mu sigma : T :=
  if is_posinf sigma then (if any_inf2 x mu then nan else ofZ 0) else
  if all_posinf2 x mu || all_neginf2 x mu then nan else
  if is_posinf x && is_neginf mu then ofZ 0 else
  if is_neginf x && is_posinf mu then ofZ 0 else ofZ 0.
(** dens/dcauchy.ipp 66-76 *)
Definition dcauchy x mu sigma lf : T :=
  if negb (cauchy_sanity3 x mu sigma) then nan else
  if any_inf3 x mu sigma then log_if (dcauchy_limit_vals x mu sigma) lf else
  log_if (dcauchy_compute ((x - mu) / sigma) sigma) lf.

(** dens/dchisq.ipp 34-39 *)
Definition dchisq_compute x dof : T :=
  - lgamma (lit (1#2) * dof) - lit (1#2) * dof * LOG_2
  + (lit (1#2) * dof - ofZ 1) * log x - x / ofZ 2.
(** dens/dchisq.ipp 44-53 *)
Definition dchisq_limit_vals dof : T :=
  if dof <? ofZ 2 then pinf else
  if dof =? ofZ 2 then lit (1#2) else ofZ 0.
(** dens/dchisq.ipp 58-74 *)
Definition dchisq x dof lf : T :=
  if negb (chisq_sanity2 x dof) then nan else
  if x <? ofZ 0 then log_zero_if lf else
  if x =? ofZ 0 then log_if (dchisq_limit_vals dof) lf else
  if any_posinf2 x dof then log_zero_if lf else
  exp_if (dchisq_compute x dof) (negb lf).

(** dens/dexp.ipp 34-38 *)
Definition dexp_log_compute x rate : T := log rate - rate * x.
(** dens/dexp.ipp 43-60 *)
Definition dexp x rate lf : T :=
  if negb (exp_sanity2 x rate) then nan else
  if is_posinf rate then nan else
  if x <? ofZ 0 then log_zero_if lf else
  if is_posinf x then (if rate >? ofZ 0 then ofZ 0 else nan) else
  exp_if (dexp_log_compute x rate) (negb lf).

(** dens/dgamma.ipp 34-39 *)
Definition dgamma_log_compute x shape scale : T :=
  - lgamma shape - shape * log scale + (shape - ofZ 1) * log x - x / scale.
(** dens/dgamma.ipp 44-58 *)
Definition dgamma_limit_vals x shape scale : T :=
  if shape =? ofZ 0 then (if x =? ofZ 0 then pinf else ofZ 0) else
  if shape <? ofZ 1 then pinf else
  if shape =? ofZ 1 then ofZ 1 / scale else ofZ 0.
(** dens/dgamma.ipp 63-79 *)
Definition dgamma x shape scale lf : T :=
  if negb (gamma_sanity3 x shape scale) then nan else
  if x <? ofZ 0 then log_zero_if lf else
  if (x =? ofZ 0) || (shape =? ofZ 0) then log_if (dgamma_limit_vals x shape scale) lf else
  if any_posinf3 x shape scale then log_zero_if lf else
  exp_if (dgamma_log_compute x shape scale) (negb lf).

(** dens/dinvgamma.ipp 34-39 *)
Definition dinvgamma_log_compute x shape rate : T :=
  - lgamma shape + shape * log rate + (- shape - ofZ 1) * log x - rate / x.
(** dens/dinvgamma.ipp 44-55 *)
Definition dinvgamma_limit_vals x shape rate : T :=
  if shape =? ofZ 0 then (if x >? ofZ 0 then pinf else ofZ 0) else
  if rate =? ofZ 0 then pinf else ofZ 0.
(** dens/dinvgamma.ipp 60-79 *)
Definition dinvgamma x shape rate lf : T :=
  if negb (invgamma_sanity3 x shape rate) then nan else
  if x <? ofZ 0 then log_zero_if lf else
  if (x =? ofZ 0) || (shape =? ofZ 0) then log_if (dinvgamma_limit_vals x shape rate) lf else
  if rate =? ofZ 0 then log_zero_if lf else
  if any_posinf3 x shape rate then log_zero_if lf else
  exp_if (dinvgamma_log_compute x shape rate) (negb lf).

(** dens/df.ipp 34-53 *)
Definition df_compute_adj x ratio_abx : T := ratio_abx * (ofZ 1 - x * ratio_abx).
Definition df_log_check x a b abx lf : T :=
  if lf then
    dbeta (abx / (ofZ 1 + abx)) a b true + log (df_compute_adj x ((a / b) / (ofZ 1 + abx)))
  else
    dbeta (abx / (ofZ 1 + abx)) a b false * df_compute_adj x ((a / b) / (ofZ 1 + abx)).
(** dens/df.ipp 58-74 *)
Definition df_limit_vals_dof x df1 df2 lf : T :=
  if all_posinf2 df1 df2 then (if x =? ofZ 1 then pinf else log_zero_if lf) else
  if is_posinf df1 then dinvgamma x (df2 / ofZ 2) (df2 / ofZ 2) lf else
  dgamma x (df1 / ofZ 2) (ofZ 2 / df1) lf.
(** dens/df.ipp 79-95 *)
Definition df_limit_vals_xinf df1 df2 : T :=
  if is_posinf df1 then (if df2 <? ofZ 2 then nan else ofZ 0) else
  if is_posinf df2 then (if df1 >? ofZ 0 then ofZ 0 else nan) else
  if (df1 >=? ofZ 2) && (df2 >=? ofZ 1) then ofZ 0 else nan.
(** dens/df.ipp 100-109 *)
Definition df_limit_vals_x0 df1 : T :=
  if df1 <? ofZ 2 then pinf else
  if df1 =? ofZ 2 then ofZ 1 else ofZ 0.
(** dens/df.ipp 114-131 *)
Definition df x df1 df2 lf : T :=
  if negb (f_sanity3 x df1 df2) then nan else
  if x <? ofZ 0 then log_zero_if lf else
  if x =? ofZ 0 then log_if (df_limit_vals_x0 df1) lf else
  if is_posinf x then log_if (df_limit_vals_xinf df1 df2) lf else
  if any_posinf2 df1 df2 then df_limit_vals_dof x df1 df2 lf else
  df_log_check x (df1 / ofZ 2) (df2 / ofZ 2) (df1 * x / df2) lf.

(** dens/dinvgauss.ipp 34-56 *)
Definition dinvgauss_term_1 x lambda : T :=
  - lit (1#2) * (LOG_2PI + ofZ 3 * log x - log lambda).
Definition dinvgauss_term_2 x xc mu lambda : T :=
  - lambda * (xc * xc) / (ofZ 2 * mu * mu * x).
Definition dinvgauss_log_compute x mu lambda : T :=
  dinvgauss_term_1 x lambda + dinvgauss_term_2 x (x - mu) mu lambda.
(** dens/dinvgauss.ipp 61-80 *)
Definition dinvgauss_limit_vals x mu lambda : T :=
  if (x =? ofZ 0) && ((mu =? ofZ 0) || (lambda =? ofZ 0)) then pinf else
  if x =? ofZ 0 then ofZ 0 else
  if lambda =? ofZ 0 then ofZ 0 else
  if is_posinf x then ofZ 0 else
  if is_posinf lambda && (x =? mu) then pinf else ofZ 0.
(** dens/dinvgauss.ipp 85-100 *)
Definition dinvgauss x mu lambda lf : T :=
  if negb (invgauss_sanity3 x mu lambda) then nan else
  if x <? ofZ 0 then log_zero_if lf else
  if any_inf3 x mu lambda || (x =? ofZ 0) || (lambda =? ofZ 0)
  then log_if (dinvgauss_limit_vals x mu lambda) lf else
  exp_if (dinvgauss_log_compute x mu lambda) (negb lf).

(** dens/dlaplace.ipp 34-38 *)
Definition dlaplace_log_compute x mu sigma : T :=
  - log (ofZ 2 * sigma) - abs (x - mu) / sigma.
(** dens/dlaplace.ipp 43-62 *)
Definition dlaplace_limit_vals x mu sigma : T :=
  if is_posinf sigma then ofZ 0 else
  if all_posinf2 x mu || all_neginf2 x mu then nan else
  if (sigma =? ofZ 0) && (x =? mu) then pinf else ofZ 0.
(** dens/dlaplace.ipp 67-77 *)
Definition dlaplace x mu sigma lf : T :=
  if negb (laplace_sanity3 x mu sigma) then nan else
  if any_inf3 x mu sigma || (sigma =? ofZ 0) then log_if (dlaplace_limit_vals x mu sigma) lf else
  exp_if (dlaplace_log_compute x mu sigma) (negb lf).

(** dens/dnorm.ipp 34-38 *)
Definition dnorm_log_compute z sigma : T :=
  - lit (1#2) * LOG_2PI - log sigma - z * z / ofZ 2.
(** dens/dnorm.ipp 43-62 *)
Definition dnorm_limit_vals x mu sigma : T :=
  if is_posinf sigma then ofZ 0 else
  if all_posinf2 x mu || all_neginf2 x mu then nan else
  if (sigma =? ofZ 0) && (x =? mu) then pinf else ofZ 0.
(** dens/dnorm.ipp 67-77 *)
Definition dnorm x mu sigma lf : T :=
  if negb (norm_sanity3 x mu sigma) then nan else
  if any_inf3 x mu sigma || (sigma =? ofZ 0) then log_if (dnorm_limit_vals x mu sigma) lf else
  exp_if (dnorm_log_compute ((x - mu) / sigma) sigma) (negb lf).
(** dens/dnorm.ipp 101-107: the overload without parameters calls pnorm *)
Definition dnorm_std x lf : T := pnorm x (ofZ 0) (ofZ 1) lf.

(** dens/dlnorm.ipp 34-40 *)
Definition dlnorm_log_check x mu sigma lf : T :=
  if lf then dnorm (log x) mu sigma true - log x
  else dnorm (log x) mu sigma false / x.
(** dens/dlnorm.ipp 45-61 *)
Definition dlnorm_limit_vals log_x mu sigma : T :=
  if is_posinf sigma then ofZ 0 else
  if sigma =? ofZ 0 then
    (if all_posinf2 log_x mu || all_neginf2 log_x mu then pinf else ofZ 0) else
  if all_posinf2 log_x mu then nan else ofZ 0.
(** dens/dlnorm.ipp 66-79 *)
Definition dlnorm x mu sigma lf : T :=
  if negb (lnorm_sanity3 x mu sigma) then nan else
  if x <? ofZ 0 then log_zero_if lf else
  if any_inf3 (log x) mu sigma || (sigma =? ofZ 0)
  then log_if (dlnorm_limit_vals (log x) mu sigma) lf else
  dlnorm_log_check x mu sigma lf.

(** dens/dlogis.ipp 34-38 *)
Definition dlogis_log_compute z sigma : T :=
  - z - log sigma - ofZ 2 * log (ofZ 1 + exp (- z)).
(** dens/dlogis.ipp 43-57 *)
Definition dlogis_limit_vals x mu sigma : T :=
  if is_posinf sigma then ofZ 0 else
  if all_posinf2 x mu || all_neginf2 x mu then nan else
  if (sigma =? ofZ 0) && (x =? mu) then pinf else ofZ 0.
(** dens/dlogis.ipp 62-72 *)
Definition dlogis x mu sigma lf : T :=
  if negb (logis_sanity3 x mu sigma) then nan else
  if any_inf3 x mu sigma then log_if (dlogis_limit_vals x mu sigma) lf else
  exp_if (dlogis_log_compute ((x - mu) / sigma) sigma) (negb lf).

(** dens/dpois.ipp 34-38.  [T(x+1)]: see [Ints.v] for the overflow of [x+1]. *)
Definition dpois_log_compute (x : Z) rate : T :=
  ofZ x * log rate - rate - lgamma (ofZ (x + 1)).
(** dens/dpois.ipp 43-61 *)
Definition dpois (x : Z) rate lf : T :=
  if negb (pois_sanity rate) then nan else
  if (x <? 0)%Z then log_zero_if lf else
  if rate =? ofZ 0 then (if (x =? 0)%Z then log_one_if lf else log_zero_if lf) else
  if is_posinf rate then log_zero_if lf else
  exp_if (dpois_log_compute x rate) (negb lf).

(** dens/dt.ipp 34-58 *)
Definition dt_log_mult_term z dof : T :=
  - (dof / ofZ 2 + lit (1#2)) * log (ofZ 1 + (z / dof) * z).
Definition dt_log_cons_term dof : T :=
  lgamma (dof / ofZ 2 + lit (1#2)) - lit (1#2) * (log dof + LOG_PI) - lgamma (dof / ofZ 2).
Definition dt_log_compute z dof : T := dt_log_cons_term dof + dt_log_mult_term z dof.
(** dens/dt.ipp 63-76 *)
Definition dt x dof lf : T :=
  if negb (t_sanity2 x dof) then nan else
  if is_inf x then log_zero_if lf else
  if is_posinf dof then dnorm x (ofZ 0) (ofZ 1) lf else
  exp_if (dt_log_compute x dof) (negb lf).

(** dens/dunif.ipp 34-40 *)
Definition dunif_log_check a b lf : T :=
  if lf then - log (b - a) else ofZ 1 / (b - a).
(** dens/dunif.ipp 45-59 *)
Definition dunif x a b lf : T :=
  if negb (unif_sanity3 x a b) then nan else
  if any_inf2 a b then ofZ 0 else
  if (x <? a) || (x >? b) then log_zero_if lf else
  dunif_log_check a b lf.
(** dens/dunif.ipp 83-89 *)
Definition dunif_std x : T := dunif x (ofZ 0) (ofZ 1) false.

(** dens/dweibull.ipp 34-38 *)
Definition dweibull_log_compute x shape scale : T :=
  log (shape / scale) + (shape - ofZ 1) * log x - pow x shape.
(** dens/dweibull.ipp 43-59 *)
Definition dweibull x shape scale lf : T :=
  if negb (weibull_sanity3 x shape scale) then nan else
  if x <? ofZ 0 then log_zero_if lf else
  if (x =? ofZ 0) && (shape <? ofZ 1) then pinf else
  if is_posinf x then log_zero_if lf else
  exp_if (dweibull_log_compute (x / scale) shape scale) (negb lf).

(** prob/pbinom.ipp 34-40.  The C++ recursion counts up to [x]; [None] stands
    for "still running". *)
Fixpoint pbinom_recur (fuel : nat) (x n : Z) prob (count : Z) : option T :=
  match fuel with
  | O => None
  | S fuel =>
    if (count =? x)%Z then Some (dbinom count n prob false)
    else option_map (add (dbinom count n prob false))
                    (pbinom_recur fuel x n prob (count + 1)%Z)
  end.
(** prob/pbinom.ipp 45-60.  The fuel [x+1] always suffices
    ([Discrete.pbinom_recur_total]). *)
Definition pbinom (x n : Z) prob lf : T :=
  if negb (binom_sanity n prob) then nan else
  if (x <? 0)%Z then log_zero_if lf else
  if (n <=? x)%Z then log_if (ofZ 1) lf else
  if (n =? 1)%Z then pbern x prob lf else
  match pbinom_recur (Z.to_nat x + 1) x n prob 0 with
  | Some v => log_if v lf
  | None => nan
  end.
End Dens.
