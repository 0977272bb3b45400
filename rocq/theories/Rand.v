(** The scalar samplers: /repo/include/stats_incl/rand/*.ipp.

    The engine (rand_engine_t, std::mt19937_64) is a state of arbitrary type [E].  What the
    samplers call outside the library is collected in [Rng]; nothing is assumed about it here:
    - [g_unif a b] is one call of a fresh std::uniform_real_distribution<T>(a,b),
    - [g_norm] is one call of a fresh std::normal_distribution<T>(0,1) (the distribution object
      is local to rnorm_compute, so nothing survives the call),
    - [g_next a b] is std::nextafter, [g_mk s] is rand_engine_t(s).
    A sampler maps an engine state to the value and the next state.  Samplers containing a loop
    return [option]: [None] means "not finished within [fuel] rounds". *)
From Coq Require Import ZArith QArith Bool List.
From Verif Require Import Num Sanity Prob Quant.
Local Open Scope num_scope.

Record Rng (T E : Type) := {
  g_unif : T -> T -> E -> T * E;
  g_norm : E -> T * E;
  g_next : T -> T -> T;
  g_mk : Z -> E
}.
Arguments g_unif {T E}. Arguments g_norm {T E}. Arguments g_next {T E}. Arguments g_mk {T E}.

Section Rand.
Context {T : Type} {N : Num T} {E : Type} (G : Rng T E).

(** rand/runif.ipp 31-45 *)
Definition runif (a b : T) (e : E) : T * E :=
  if negb (unif_sanity2 a b) then (nan, e) else g_unif G (g_next G a b) b e.

(** rand/rnorm.ipp 31-45 *)
Definition rnorm (mu sigma : T) (e : E) : T * E :=
  if negb (norm_sanity2 mu sigma) then (nan, e) else
  let '(z, e') := g_norm G e in (mu + sigma * z, e').

(** runif(T(0),T(1),engine) *)
Definition runif01 (e : E) : T * E := runif (ofZ 0) (ofZ 1) e.
(** rnorm(T(0),T(1),engine) *)
Definition rnorm01 (e : E) : T * E := rnorm (ofZ 0) (ofZ 1) e.

(** rand/rexp.ipp 31-40 *)
Definition rexp (rate : T) (e : E) : T * E :=
  if negb (exp_sanity1 rate) then (nan, e) else
  let '(u, e') := runif01 e in (qexp u rate, e').

(** rand/rcauchy.ipp 31-40 *)
Definition rcauchy (mu sigma : T) (e : E) : T * E :=
  if negb (cauchy_sanity2 mu sigma) then (nan, e) else
  let '(u, e') := runif01 e in (qcauchy u mu sigma, e').

(** rand/rlaplace.ipp 31-40 *)
Definition rlaplace (mu sigma : T) (e : E) : T * E :=
  if negb (laplace_sanity2 mu sigma) then (nan, e) else
  let '(u, e') := runif01 e in (qlaplace u mu sigma, e').

(** rand/rlogis.ipp 31-40 *)
Definition rlogis (mu sigma : T) (e : E) : T * E :=
  if negb (logis_sanity2 mu sigma) then (nan, e) else
  let '(u, e') := runif01 e in (qlogis u mu sigma, e').

(** rand/rweibull.ipp 31-40 *)
Definition rweibull (shape scale : T) (e : E) : T * E :=
  if negb (weibull_sanity2 shape scale) then (nan, e) else
  let '(u, e') := runif01 e in (qweibull u shape scale, e').

(** rand/rlnorm.ipp 31-40 *)
Definition rlnorm (mu sigma : T) (e : E) : T * E :=
  if negb (lnorm_sanity2 mu sigma) then (nan, e) else
  let '(z, e') := rnorm mu sigma e in (exp z, e').

(** rand/rbern.ipp 28-37, for a floating type T (see Types.v for integral T).  The bool is
    converted to return_t<T>. *)
Definition rbern (prob : T) (e : E) : T * E :=
  if negb (bern_sanity prob) then (nan, e) else
  let '(u, e') := runif01 e in ((if u <=? prob then ofZ 1 else ofZ 0), e').

(** rand/rradem.ipp 28-37, for a floating type T: an int expression, then converted *)
Definition rradem (prob : T) (e : E) : T * E :=
  if negb (radem_sanity prob) then (nan, e) else
  let '(u, e') := runif01 e in (ofZ (2 * (if u <=? prob then 1 else 0) - 1), e').

(** rand/rbinom.ipp 41-44 *)
Fixpoint rbinom_loop (n : nat) (prob ret : T) (e : E) : T * E :=
  match n with
  | O => (ret, e)
  | S n' => let '(b, e') := rbern prob e in rbinom_loop n' prob (ret + b) e'
  end.
(** rand/rbinom.ipp 28-47 *)
Definition rbinom (n : Z) (prob : T) (e : E) : T * E :=
  if negb (binom_sanity n prob) then (nan, e) else
  rbinom_loop (Z.to_nat n) prob (ofZ 0) e.

(** rand/rinvgauss.ipp 42 *)
Definition rinvgauss_root (mu lambda nu : T) : T :=
  let mu_sq := mu * mu in
  let y := nu * nu in
  mu + (mu_sq * y - mu * sqrt (ofZ 4 * mu * lambda * y + mu_sq * y * y)) / (ofZ 2 * lambda).
(** rand/rinvgauss.ipp 31-55 *)
Definition rinvgauss (mu lambda : T) (e : E) : T * E :=
  let '(nu, e1) := rnorm01 e in
  let x := rinvgauss_root mu lambda nu in
  let '(z, e2) := runif01 e1 in
  if z <=? mu / (mu + x) then (x, e2) else (mu * mu / x, e2).

(** rand/rgamma.ipp 46-47 *)
Definition rgamma_d (shape : T) : T := shape - ofZ 1 / ofZ 3.
Definition rgamma_c (d : T) : T := ofZ 1 / ofZ 3 / sqrt d.

(** rand/rgamma.ipp 53-64: one round of the loop; [Some V] when the round accepts *)
Definition rgamma_round (d c : T) (e : E) : option T * E :=
  let '(Z, e1) := rnorm01 e in
  if - ofZ 1 / c <? Z then
    let V := powZ (ofZ 1 + c * Z) 3 in
    let '(U, e2) := runif01 e1 in
    let check_2 := lit (1#2) * Z * Z + d * (ofZ 1 - V + log V) in
    ((if log U <? check_2 then Some V else None), e2)
  else (None, e1).

(** rand/rgamma.ipp 52-65 *)
Fixpoint rgamma_loop (fuel : nat) (d c : T) (e : E) : option (T * E) :=
  match fuel with
  | O => None
  | S fuel' =>
      match rgamma_round d c e with
      | (Some V, e') => Some (V, e')
      | (None, e') => rgamma_loop fuel' d c e'
      end
  end.

(** rand/rgamma.ipp 32-76.  [depth] bounds the recursion of line 70, [fuel] each loop. *)
Fixpoint rgamma_rec (depth fuel : nat) (shape scale : T) (e : E) : option (T * E) :=
  match depth with
  | O => None
  | S depth' =>
      if negb (gamma_sanity2 shape scale) then Some (nan, e) else
      if ofZ 1 <? shape then
        let d := rgamma_d shape in
        match rgamma_loop fuel d (rgamma_c d) e with
        | Some (V, e') => Some (d * V * scale, e')
        | None => None
        end
      else
        let '(U, e1) := runif01 e in
        match rgamma_rec depth' fuel (ofZ 1 + shape) scale e1 with
        | Some (X, e2) => Some (X * pow U (ofZ 1 / shape), e2)
        | None => None
        end
  end.
(** One count for both. *)
Definition rgamma (fuel : nat) (shape scale : T) (e : E) : option (T * E) := rgamma_rec fuel fuel shape scale e.

(** rand/rchisq.ipp 31-40 *)
Definition rchisq (fuel : nat) (dof : T) (e : E) : option (T * E) :=
  if negb (chisq_sanity1 dof) then Some (nan, e) else
  rgamma fuel (dof / ofZ 2) (ofZ 2) e.

(** rand/rbeta.ipp 31-46 *)
Definition rbeta (fuel : nat) (a b : T) (e : E) : option (T * E) :=
  if negb (beta_sanity2 a b) then Some (nan, e) else
  match rgamma fuel a (ofZ 1) e with
  | Some (X, e1) =>
      match rgamma fuel b (ofZ 1) e1 with
      | Some (Y, e2) => Some (X / (X + Y), e2)
      | None => None
      end
  | None => None
  end.

(** rand/rf.ipp 31-46 *)
Definition rf (fuel : nat) (df1 df2 : T) (e : E) : option (T * E) :=
  if negb (f_sanity2 df1 df2) then Some (nan, e) else
  match rchisq fuel df1 e with
  | Some (X, e1) =>
      match rchisq fuel df2 e1 with
      | Some (Y, e2) => Some (df2 / df1 * X / Y, e2)
      | None => None
      end
  | None => None
  end.

(** rand/rt.ipp 31-45 *)
Definition rt (fuel : nat) (dof : T) (e : E) : option (T * E) :=
  if negb (t_sanity1 dof) then Some (nan, e) else
  let '(numer, e1) := rnorm01 e in
  match rchisq fuel dof e1 with
  | Some (X, e2) => Some (numer / sqrt (X / dof), e2)
  | None => None
  end.

(** rand/rinvgamma.ipp 28-37 *)
Definition rinvgamma (fuel : nat) (shape rate : T) (e : E) : option (T * E) :=
  if negb (invgamma_sanity2 shape rate) then Some (nan, e) else
  match rgamma fuel shape (ofZ 1 / rate) e with
  | Some (X, e') => Some (ofZ 1 / X, e')
  | None => None
  end.

(** rand/rpois.ipp 31-40; qpois searches, see [qpois_run] *)
Definition rpois (trunc : T -> option Z) (fuel : nat) (rate : T) (e : E) : option (T * E) :=
  if negb (pois_sanity rate) then Some (nan, e) else
  let '(u, e') := runif01 e in
  match qpois_run trunc fuel u rate with
  | Some q => Some (q, e')
  | None => None
  end.

(** The overloads taking [const ullint_t seed_val] (the last overload of each scalar section,
    e.g. rexp.ipp 52-59): an engine is built and dropped. *)
Definition runif_seed a b s : T := fst (runif a b (g_mk G s)).
Definition rnorm_seed mu sigma s : T := fst (rnorm mu sigma (g_mk G s)).
Definition rexp_seed rate s : T := fst (rexp rate (g_mk G s)).
Definition rcauchy_seed mu sigma s : T := fst (rcauchy mu sigma (g_mk G s)).
Definition rlaplace_seed mu sigma s : T := fst (rlaplace mu sigma (g_mk G s)).
Definition rlogis_seed mu sigma s : T := fst (rlogis mu sigma (g_mk G s)).
Definition rweibull_seed shape scale s : T := fst (rweibull shape scale (g_mk G s)).
Definition rlnorm_seed mu sigma s : T := fst (rlnorm mu sigma (g_mk G s)).
Definition rbern_seed prob s : T := fst (rbern prob (g_mk G s)).
Definition rradem_seed prob s : T := fst (rradem prob (g_mk G s)).
Definition rbinom_seed n prob s : T := fst (rbinom n prob (g_mk G s)).
Definition rinvgauss_seed mu lambda s : T := fst (rinvgauss mu lambda (g_mk G s)).
Definition rgamma_seed fuel shape scale s : option T := option_map fst (rgamma fuel shape scale (g_mk G s)).
Definition rchisq_seed fuel dof s : option T := option_map fst (rchisq fuel dof (g_mk G s)).
Definition rbeta_seed fuel a b s : option T := option_map fst (rbeta fuel a b (g_mk G s)).
Definition rf_seed fuel df1 df2 s : option T := option_map fst (rf fuel df1 df2 (g_mk G s)).
Definition rt_seed fuel dof s : option T := option_map fst (rt fuel dof (g_mk G s)).
Definition rinvgamma_seed fuel shape rate s : option T := option_map fst (rinvgamma fuel shape rate (g_mk G s)).
Definition rpois_seed trunc fuel rate s : option T := option_map fst (rpois trunc fuel rate (g_mk G s)).

(** misc/internal_fns/seed_values.hpp 29-34, before the conversion to size_t; always double *)
Definition seed_arg (k n : Z) (u : T) : T := (u + ofZ k + ofZ n) * ofZ 1000.
End Rand.
