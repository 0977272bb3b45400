(** Quantile functions: /repo/include/stats_incl/quant/*.ipp. *)
From Coq Require Import ZArith QArith Bool.
From Verif Require Import Num Sanity Prob Dens.
Local Open Scope num_scope.

Section Quant.
Context {T : Type} {N : Num T}.
Implicit Types x p : T.

(** quant/qbern.ipp 34-46 *)
Definition qbern p prob : T :=
  if negb (bern_sanity prob) then nan else
  if negb (prob_val_check p) then nan else
  if p >? (ofZ 1 - prob) then ofZ 1 else ofZ 0.

(** quant/qradem.ipp 34-46 *)
Definition qradem p prob : T :=
  if negb (radem_sanity prob) then nan else
  if negb (prob_val_check p) then nan else
  if p >? (ofZ 1 - prob) then ofZ 1 else ofZ (-1).

(** quant/qbeta.ipp 34-38 *)
Definition qbeta_compute p a b : T := incbeta_inv a b p.
(** quant/qbeta.ipp 43-61 *)
Definition qbeta_limit_vals p a b : T :=
  if (a =? ofZ 0) && (b =? ofZ 0) then
    (if p <? lit (1#2) then ofZ 0 else
     if p >? lit (1#2) then ofZ 1 else lit (1#2)) else
  if (a =? ofZ 0) || (is_posinf b && negb (is_posinf a)) then ofZ 0 else
  if (b =? ofZ 0) || (is_posinf a && negb (is_posinf b)) then ofZ 1 else
  lit (1#2).
(** quant/qbeta.ipp 66-84 *)
Definition qbeta p a b : T :=
  if negb (beta_sanity2 a b) then nan else
  if negb (prob_val_check p) then nan else
  if p =? ofZ 0 then ofZ 0 else
  if p =? ofZ 1 then ofZ 1 else
  if (a =? ofZ 0) || (b =? ofZ 0) || any_posinf2 a b then qbeta_limit_vals p a b else
  qbeta_compute p a b.

(** quant/qbinom.ipp 34-40, the search loop; [None] stands for "still running" *)
Fixpoint qbinom_recur (fuel : nat) p (n : Z) prob (value : T) (count : Z) : option T :=
  match fuel with
  | O => None
  | S fuel =>
    if value <? p then qbinom_recur fuel p n prob (pbinom count n prob false) (count + 1)%Z
    else Some (ofZ (count - 1))
  end.
(** quant/qbinom.ipp 45-60.  [fuel] bounds the number of loop tests;
    [Discrete.qbinom_total] shows that [n+2] always suffices. *)
Definition qbinom_run (fuel : nat) p (n : Z) prob : option T :=
  if negb (binom_sanity n prob) then Some nan else
  if negb (prob_val_check p) then Some nan else
  if p =? ofZ 0 then Some (ofZ 0) else
  if p =? ofZ 1 then Some (ofZ n) else
  qbinom_recur fuel p n prob (ofZ 0) 0.
Definition qbinom p (n : Z) prob : T :=
  match qbinom_run (Z.to_nat n + 2) p n prob with Some v => v | None => nan end.

(** quant/qcauchy.ipp 34-38 *)
Definition qcauchy_compute p mu sigma : T := mu + sigma * tan (PI * (p - lit (1#2))).
(** quant/qcauchy.ipp 43-68 *)
Definition qcauchy p mu sigma : T :=
  if negb (cauchy_sanity2 mu sigma) then nan else
  if negb (prob_val_check p) then nan else
  if is_posinf sigma then nan else
  if sigma =? ofZ 0 then mu else
  if p =? ofZ 0 then (if is_posinf mu then nan else - pinf) else
  if p =? ofZ 1 then (if is_neginf mu then nan else pinf) else
  qcauchy_compute p mu sigma.

(** quant/qchisq.ipp 34-38, 43-58 *)
Definition qchisq_compute p dof : T := ofZ 2 * incgamma_inv (dof / ofZ 2) p.
Definition qchisq p dof : T :=
  if negb (chisq_sanity1 dof) then nan else
  if negb (prob_val_check p) then nan else
  if p =? ofZ 0 then ofZ 0 else
  if p =? ofZ 1 then pinf else
  qchisq_compute p dof.

(** quant/qexp.ipp 34-38, 43-58 *)
Definition qexp_compute p rate : T := - log (ofZ 1 - p) / rate.
Definition qexp p rate : T :=
  if negb (exp_sanity1 rate) then nan else
  if negb (prob_val_check p) then nan else
  if p =? ofZ 0 then ofZ 0 else
  if p =? ofZ 1 then pinf else
  qexp_compute p rate.

(** quant/qf.ipp 34-47 *)
Definition qf_compute_adj I_inv_val ab_ratio : T := I_inv_val / (ab_ratio * (ofZ 1 - I_inv_val)).
Definition qf_compute p a b : T := qf_compute_adj (incbeta_inv a b p) (a / b).
(** quant/qf.ipp 52-63 *)
Definition qf_limit_vals_dof p df1 df2 : T :=
  if all_posinf2 df1 df2 then ofZ 1 else
  if is_posinf df1 then df2 / qchisq (ofZ 1 - p) df2 else
  qchisq p df1 / df1.
(** quant/qf.ipp 68-86 *)
Definition qf p df1 df2 : T :=
  if negb (f_sanity2 df1 df2) then nan else
  if negb (prob_val_check p) then nan else
  if p =? ofZ 0 then ofZ 0 else
  if p =? ofZ 1 then pinf else
  if any_posinf2 df1 df2 then qf_limit_vals_dof p df1 df2 else
  qf_compute p (df1 / ofZ 2) (df2 / ofZ 2).

(** quant/qgamma.ipp 34-38, 43-53, 58-76 *)
Definition qgamma_compute p shape scale : T := scale * incgamma_inv shape p.
Definition qgamma_limit_vals shape scale : T :=
  if shape =? ofZ 0 then (if is_posinf scale then nan else ofZ 0) else nan.
Definition qgamma p shape scale : T :=
  if negb (gamma_sanity2 shape scale) then nan else
  if negb (prob_val_check p) then nan else
  if p =? ofZ 0 then ofZ 0 else
  if p =? ofZ 1 then pinf else
  if any_posinf2 shape scale || (shape =? ofZ 0) then qgamma_limit_vals shape scale else
  qgamma_compute p shape scale.

(** quant/qinvgamma.ipp 34-38, 43-53, 58-76 *)
Definition qinvgamma_compute p shape rate : T := rate / incgamma_inv shape (ofZ 1 - p).
Definition qinvgamma_limit_vals shape rate : T :=
  if rate =? ofZ 0 then (if shape =? ofZ 0 then nan else ofZ 0) else nan.
Definition qinvgamma p shape rate : T :=
  if negb (invgamma_sanity2 shape rate) then nan else
  if negb (prob_val_check p) then nan else
  if p =? ofZ 0 then ofZ 0 else
  if p =? ofZ 1 then pinf else
  if any_posinf2 shape rate || (shape =? ofZ 0) || (rate =? ofZ 0)
  then qinvgamma_limit_vals shape rate else
  qinvgamma_compute p shape rate.

(** quant/qinvgauss.ipp 39-43 *)
Definition invgauss_mode mu mu_div_lambda : T :=
  mu * (sqrt (ofZ 1 + ofZ 9 * mu_div_lambda * mu_div_lambda / ofZ 4)
        - ofZ 3 * mu_div_lambda / ofZ 2).
(** quant/qinvgauss.ipp 48-66.  [steps] is STATS_QINVGAUSS_MAX_ITER - count
    (statslib_options.hpp 214: 100).  The unqualified [abs] of line 60 is taken
    to be the floating one. *)
Fixpoint qinvgauss_iter (steps : nat) qn p mu lambda : T :=
  let dval := p - pinvgauss qn mu lambda false in
  if abs dval <? tmin then qn else
  match steps with
  | S steps => qinvgauss_iter steps (qn + dval / dinvgauss qn mu lambda false) p mu lambda
  | O => qn
  end.
(** quant/qinvgauss.ipp 72-76 *)
Definition qinvgauss_compute p mu lambda : T :=
  qinvgauss_iter 100 (invgauss_mode mu (mu / lambda)) p mu lambda.
(** quant/qinvgauss.ipp 81-108 *)
Definition qinvgauss p mu lambda : T :=
  if negb (invgauss_sanity2 mu lambda) then nan else
  if negb (prob_val_check p) then nan else
  if is_posinf lambda then nan else
  if mu =? ofZ 0 then nan else
  if lambda =? ofZ 0 then (if p =? ofZ 1 then pinf else ofZ 0) else
  if p =? ofZ 1 then pinf else
  if p =? ofZ 0 then ofZ 0 else
  qinvgauss_compute p mu lambda.

(** quant/qlaplace.ipp 34-38 *)
Definition qlaplace_compute p mu sigma : T :=
  mu - sigma * ofZ (sgn (p - lit (1#2))) * log (ofZ 1 - ofZ 2 * abs (p - lit (1#2))).
(** quant/qlaplace.ipp 43-68 *)
Definition qlaplace p mu sigma : T :=
  if negb (laplace_sanity2 mu sigma) then nan else
  if negb (prob_val_check p) then nan else
  if is_posinf sigma then nan else
  if sigma =? ofZ 0 then mu else
  if p =? ofZ 0 then (if is_posinf mu then nan else - pinf) else
  if p =? ofZ 1 then (if is_neginf mu then nan else pinf) else
  qlaplace_compute p mu sigma.

(** quant/qlogis.ipp 34-38 *)
Definition qlogis_compute p mu sigma : T := mu + sigma * log (p / (ofZ 1 - p)).
(** quant/qlogis.ipp 43-68 *)
Definition qlogis p mu sigma : T :=
  if negb (logis_sanity2 mu sigma) then nan else
  if negb (prob_val_check p) then nan else
  if is_posinf sigma then nan else
  if sigma =? ofZ 0 then mu else
  if p =? ofZ 0 then (if is_posinf mu then nan else - pinf) else
  if p =? ofZ 1 then (if is_neginf mu then nan else pinf) else
  qlogis_compute p mu sigma.

(** quant/qnorm.ipp 34-38 *)
Definition qnorm_compute p mu sigma : T :=
  mu + SQRT_2 * sigma * erf_inv (ofZ 2 * p - ofZ 1).
(** quant/qnorm.ipp 43-68 *)
Definition qnorm p mu sigma : T :=
  if negb (norm_sanity2 mu sigma) then nan else
  if negb (prob_val_check p) then nan else
  if is_posinf sigma then nan else
  if sigma =? ofZ 0 then mu else
  if p =? ofZ 0 then (if is_posinf mu then nan else - pinf) else
  if p =? ofZ 1 then (if is_neginf mu then nan else pinf) else
  qnorm_compute p mu sigma.
(** quant/qnorm.ipp 91-97 *)
Definition qnorm_std p : T := qnorm p (ofZ 0) (ofZ 1).

(** quant/qlnorm.ipp 34-38, 43-53 *)
Definition qlnorm p mu sigma : T :=
  if negb (lnorm_sanity2 mu sigma) then nan else
  if negb (prob_val_check p) then nan else
  exp (qnorm p mu sigma).

(** quant/qpois.ipp 34-43; [None] stands for "still running" *)
Fixpoint qpois_search (fuel : nat) p rate (value : T) (count : Z) : option T :=
  match fuel with
  | O => None
  | S fuel =>
    if value <=? p then qpois_search fuel p rate (ppois count rate false) (count + 1)%Z
    else if (0 <? count)%Z then Some (ofZ (count - 1)) else Some (ofZ 0)
  end.
(** quant/qpois.ipp 48-52 *)
Definition qpois_search_begin (fuel : nat) p rate (count : Z) : option T :=
  qpois_search fuel p rate (ppois count rate false) count.
(** quant/qpois.ipp 57-61, before the conversion to llint_t *)
Definition qpois_normal_approx p rate : T :=
  tmax (ofZ 0) (qnorm p rate (sqrt rate) - ofZ 3).
(** quant/qpois.ipp 66-86.  [trunc] is the float-to-integer conversion of line 60;
    it returns [None] where the C++ conversion is undefined. *)
Definition qpois_run (trunc : T -> option Z) (fuel : nat) p rate : option T :=
  if negb (pois_sanity rate) then Some nan else
  if negb (prob_val_check p) then Some nan else
  if p =? ofZ 0 then Some (ofZ 0) else
  if epsilon >? rate then Some (ofZ 0) else
  if p =? ofZ 1 then Some pinf else
  if rate <? ofZ 11 then qpois_search fuel p rate (ofZ 0) 0 else
  match trunc (qpois_normal_approx p rate) with
  | Some start => qpois_search_begin fuel p rate start
  | None => None
  end.

(** quant/qt.ipp 39-83: coefficients *)
Definition qt_coef_a dof : T := ofZ 1 / (dof - lit (1#2)).
Definition qt_coef_b coef_a : T := ofZ 48 / (coef_a * coef_a).
Definition qt_coef_c coef_a coef_b : T :=
  lit (9636#100) + coef_a * (- ofZ 16 + coef_a * (- ofZ 98 + ofZ 20700 * coef_a / coef_b)).
Definition qt_coef_c_update x dof coef_c : T :=
  if dof <? ofZ 5 then coef_c + lit (3#10) * (dof - lit (45#10)) * (x + lit (6#10)) else coef_c.
Definition qt_coef_d dof coef_a coef_b coef_c : T :=
  dof * sqrt coef_a * SQRT_HALF_PI *
    (ofZ 1 + (- ofZ 3 + lit (945#10) / (coef_b + coef_c)) / coef_b).
(** quant/qt.ipp 90-94 *)
Definition qt_y_init p dof coef_d : T := pow (coef_d * p) (ofZ 2 / dof).
(** quant/qt.ipp 101-137; the stage counter of the source is unrolled:
    stage 0 updates coef_c, stage 1 computes y=x*x and coef_c, stages 2-4 update y. *)
Definition qt_y_1 x dof coef_a coef_b coef_c coef_d : T :=
  let c0 := qt_coef_c_update x dof coef_c in
  let y1 := x * x in
  let c1 := coef_b + c0 + x * (- ofZ 2 + x * (- ofZ 7 + x * (- ofZ 5 + lit (5#100) * x * coef_d))) in
  let y2 := x * (ofZ 1 + ((y1 * (ofZ 36 + y1 * (lit (63#10) + y1 * lit (4#10))) + lit (945#10)) / c1
                          - y1 - ofZ 3) / coef_b) in
  let y3 := coef_a * y2 * y2 in
  if y3 >? lit (1#10) then expm1 y3
  else y3 + y3 * y3 * (ofZ 12 + y3 * (ofZ 4 + y3)) / ofZ 24.
(** quant/qt.ipp 143-182: at most six Taylor steps; [steps] is 6 - iter *)
Definition qt_y_2_val_update val_out dof x : T :=
  val_out + x * (ofZ 1 + x * val_out * (ofZ 1 + dof) / (ofZ 2 * (dof + val_out * val_out))).
Fixpoint qt_y_2_loop (steps : nat) p dof val_out x : T :=
  let val_out := qt_y_2_val_update val_out dof x in
  match steps with
  | S steps =>
    qt_y_2_loop steps p dof val_out
      ((ofZ 1 - pt val_out dof false - p) / dt val_out dof false)
  | O => val_out
  end.
Definition qt_y_2_begin p dof y : T :=
  qt_y_2_loop 6 (p / ofZ 2) dof (sqrt (dof * y)) (ofZ 0).
(** quant/qt.ipp 187-200 *)
Definition qt_y_2_mterm y dof coef_d : T :=
  lit (5#10) / (dof + ofZ 4)
  + ofZ 1 / (((dof + ofZ 6) / (dof * y) - lit (89#1000) * coef_d - lit (822#1000))
             * (dof + ofZ 2) * ofZ 3).
Definition qt_y_2 p y dof coef_d : T :=
  qt_y_2_begin p dof
    ((ofZ 1 / y) + (dof + ofZ 1) * (qt_y_2_mterm y dof coef_d * y - ofZ 1) / (dof + ofZ 2)).
(** quant/qt.ipp 207-223 *)
Definition qt_choose p y dof coef_a coef_b coef_c coef_d : T :=
  if y >? lit (5#100) + coef_a
  then sqrt (dof * qt_y_1 (qnorm_std (lit (1#2) * p)) dof coef_a coef_b coef_c coef_d)
  else qt_y_2 p y dof coef_d.
Definition qt_finish p dof coef_a coef_b coef_c coef_d : T :=
  qt_choose p (qt_y_init p dof coef_d) dof coef_a coef_b coef_c coef_d.
(** quant/qt.ipp 228-241; the stage counter is unrolled *)
Definition qt_main_iter p dof : T :=
  let coef_a := qt_coef_a dof in
  let coef_b := qt_coef_b coef_a in
  let coef_c := qt_coef_c coef_a coef_b in
  let coef_d := qt_coef_d dof coef_a coef_b coef_c in
  qt_finish p dof coef_a coef_b coef_c coef_d.
(** quant/qt.ipp 246-252 *)
Definition qt_main p dof : T :=
  if p <? lit (1#2) then - qt_main_iter (ofZ 2 * p) dof else qt_main_iter (ofZ 2 * p) dof.
(** quant/qt.ipp 257-280 *)
Definition qt p dof : T :=
  if negb (t_sanity1 dof) then nan else
  if negb (prob_val_check p) then nan else
  if p =? ofZ 0 then - pinf else
  if p =? ofZ 1 then pinf else
  if dof =? ofZ 1 then tan (PI * (p - lit (1#2))) else
  if dof =? ofZ 2 then (ofZ 2 * p - ofZ 1) / sqrt (ofZ 2 * p * (ofZ 1 - p)) else
  if dof =? pinf then qnorm p (ofZ 0) (ofZ 1) else
  qt_main p dof.

(** quant/qunif.ipp 34-38, 43-61 *)
Definition qunif_compute p a b : T := a + p * (b - a).
Definition qunif p a b : T :=
  if negb (unif_sanity2 a b) then nan else
  if negb (prob_val_check p) then nan else
  if any_inf2 a b then nan else
  if p =? ofZ 0 then a else
  if p =? ofZ 1 then b else
  qunif_compute p a b.

(** quant/qweibull.ipp 34-38, 43-64 *)
Definition qweibull_compute p shape scale : T := scale * pow (- log1p (- p)) (ofZ 1 / shape).
Definition qweibull p shape scale : T :=
  if negb (weibull_sanity2 shape scale) then nan else
  if negb (prob_val_check p) then nan else
  if shape =? ofZ 0 then nan else
  if p =? ofZ 0 then ofZ 0 else
  if p =? ofZ 1 then pinf else
  if is_posinf shape then scale else
  qweibull_compute p shape scale.
End Quant.
