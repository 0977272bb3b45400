(** Parameter checks: /repo/include/stats_incl/misc/sanity_checks/*.hpp.
    Each definition follows the nested conditional of the source. *)
From Coq Require Import ZArith Bool.
From Verif Require Import Num.
Local Open Scope num_scope.

Section Sanity.
Context {T : Type} {N : Num T}.
Implicit Types x p : T.

(** prob_val.hpp 31-44 *)
Definition prob_val_check p : bool :=
  if is_nan p then false else
  if p <? ofZ 0 then false else
  if p >? ofZ 1 then false else true.

(** bern.hpp 31-47 *)
Definition bern_sanity prob : bool :=
  if is_nan prob then false else
  if is_inf prob then false else
  if prob <? ofZ 0 then false else
  if prob >? ofZ 1 then false else true.

(** radem.hpp 31-47 *)
Definition radem_sanity prob : bool :=
  if is_nan prob then false else
  if is_inf prob then false else
  if prob <? ofZ 0 then false else
  if prob >? ofZ 1 then false else true.

(** binom.hpp 31-50 *)
Definition binom_sanity (n : Z) prob : bool :=
  if is_nan prob then false else
  if is_inf prob then false else
  if (n <? 0)%Z then false else
  if prob <? ofZ 0 then false else
  if prob >? ofZ 1 then false else true.

(** pois.hpp 31-41 *)
Definition pois_sanity rate : bool :=
  if is_nan rate then false else
  if rate <? ofZ 0 then false else true.

(** beta.hpp 31-44, 49-53 *)
Definition beta_sanity2 a b : bool :=
  if any_nan2 a b then false else
  if a <? ofZ 0 then false else
  if b <? ofZ 0 then false else true.
Definition beta_sanity3 x a b : bool := negb (is_nan x) && beta_sanity2 a b.

(** cauchy.hpp 31-41, 46-50 *)
Definition cauchy_sanity2 mu sigma : bool :=
  if any_nan2 mu sigma then false else
  if sigma <? ofZ 0 then false else true.
Definition cauchy_sanity3 x mu sigma : bool := negb (is_nan x) && cauchy_sanity2 mu sigma.

(** chisq.hpp 31-41, 46-50 *)
Definition chisq_sanity1 dof : bool :=
  if is_nan dof then false else
  if dof <? ofZ 0 then false else true.
Definition chisq_sanity2 x dof : bool := negb (is_nan x) && chisq_sanity1 dof.

(** exp.hpp 31-41, 46-50 *)
Definition exp_sanity1 rate : bool :=
  if is_nan rate then false else
  if rate <? ofZ 0 then false else true.
Definition exp_sanity2 x rate : bool := negb (is_nan x) && exp_sanity1 rate.

(** f.hpp 31-44, 49-53 *)
Definition f_sanity2 df1 df2 : bool :=
  if any_nan2 df1 df2 then false else
  if epsilon >? df1 then false else
  if epsilon >? df2 then false else true.
Definition f_sanity3 x df1 df2 : bool := negb (is_nan x) && f_sanity2 df1 df2.

(** gamma.hpp 31-44, 49-53 *)
Definition gamma_sanity2 shape scale : bool :=
  if any_nan2 shape scale then false else
  if shape <? ofZ 0 then false else
  if epsilon >? scale then false else true.
Definition gamma_sanity3 x shape scale : bool := negb (is_nan x) && gamma_sanity2 shape scale.

(** invgamma.hpp 31-44, 49-53 *)
Definition invgamma_sanity2 shape rate : bool :=
  if any_nan2 shape rate then false else
  if shape <? ofZ 0 then false else
  if rate <? ofZ 0 then false else true.
Definition invgamma_sanity3 x shape rate : bool := negb (is_nan x) && invgamma_sanity2 shape rate.

(** invgauss.hpp 31-44, 49-53 *)
Definition invgauss_sanity2 mu lambda : bool :=
  if any_nan2 mu lambda then false else
  if mu <? ofZ 0 then false else
  if lambda <? ofZ 0 then false else true.
Definition invgauss_sanity3 x mu lambda : bool := negb (is_nan x) && invgauss_sanity2 mu lambda.

(** laplace.hpp 31-41, 46-50 *)
Definition laplace_sanity2 mu sigma : bool :=
  if any_nan2 mu sigma then false else
  if sigma <? ofZ 0 then false else true.
Definition laplace_sanity3 x mu sigma : bool := negb (is_nan x) && laplace_sanity2 mu sigma.

(** lnorm.hpp 31-41, 46-50 *)
Definition lnorm_sanity2 mu sigma : bool :=
  if any_nan2 mu sigma then false else
  if sigma <? ofZ 0 then false else true.
Definition lnorm_sanity3 x mu sigma : bool := negb (is_nan x) && lnorm_sanity2 mu sigma.

(** logis.hpp 31-41, 46-50 *)
Definition logis_sanity2 mu sigma : bool :=
  if any_nan2 mu sigma then false else
  if sigma <? ofZ 0 then false else true.
Definition logis_sanity3 x mu sigma : bool := negb (is_nan x) && logis_sanity2 mu sigma.

(** norm.hpp 31-41, 46-50 *)
Definition norm_sanity2 mu sigma : bool :=
  if any_nan2 mu sigma then false else
  if sigma <? ofZ 0 then false else true.
Definition norm_sanity3 x mu sigma : bool := negb (is_nan x) && norm_sanity2 mu sigma.

(** t.hpp 31-41, 46-50 *)
Definition t_sanity1 dof : bool :=
  if is_nan dof then false else
  if epsilon >? dof then false else true.
Definition t_sanity2 x dof : bool := negb (is_nan x) && t_sanity1 dof.

(** unif.hpp 31-41, 46-50 *)
Definition unif_sanity2 a b : bool :=
  if any_nan2 a b then false else
  if a >=? b then false else true.
Definition unif_sanity3 x a b : bool := negb (is_nan x) && unif_sanity2 a b.

(** weibull.hpp 31-44, 49-53 *)
Definition weibull_sanity2 shape scale : bool :=
  if any_nan2 shape scale then false else
  if shape <? epsilon then false else
  if scale <? epsilon then false else true.
Definition weibull_sanity3 x shape scale : bool := negb (is_nan x) && weibull_sanity2 shape scale.
End Sanity.
