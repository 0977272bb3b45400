(** The discrete functions with 64-bit integer arithmetic made explicit: every addition and
    subtraction on llint_t (misc/statslib_options.hpp 74) and every conversion from a floating type
    to llint_t is checked, and the outcome is [UB] when the exact result does not fit.
    Otherwise the definitions repeat those of Dens.v, Prob.v and Quant.v. *)
From Coq Require Import ZArith QArith Bool List.
From Verif Require Import Num Sanity Prob Dens Quant Vec.
Import ListNotations.
Local Open Scope num_scope.

Definition LMAX : Z := 2 ^ 63 - 1.
Definition LMIN : Z := - 2 ^ 63.
Definition in64 (z : Z) : bool := ((LMIN <=? z) && (z <=? LMAX))%Z.
Definition chk (z : Z) : outcome Z := if in64 z then Ok z else UB.
Definition obind {A B} (o : outcome A) (f : A -> outcome B) : outcome B :=
  match o with Ok a => f a | UB => UB end.
(** computations that may still be running ([None]) *)
Definition rbind {A B} (o : option (outcome A)) (f : A -> option (outcome B)) : option (outcome B) :=
  match o with None => None | Some UB => Some UB | Some (Ok a) => f a end.
Definition rlift {A} (o : outcome A) : option (outcome A) := Some o.
Fixpoint zfact (n : nat) : Z := match n with O => 1%Z | S n' => (Z.of_nat n * zfact n')%Z end.

Section Ints.
Context {T : Type} {N : Num T}.
Implicit Types p rate prob value : T.

(** dens/dpois.ipp 34-38 *)
Definition dpois_log_compute_chk (x : Z) rate : outcome T :=
  obind (chk (x + 1)) (fun x1 => Ok (ofZ x * log rate - rate - lgamma (ofZ x1))).
(** dens/dpois.ipp 43-61 *)
Definition dpois_chk (x : Z) rate (lf : bool) : outcome T :=
  if negb (pois_sanity rate) then Ok nan else
  if (x <? 0)%Z then Ok (log_zero_if lf) else
  if rate =? ofZ 0 then (if (x =? 0)%Z then Ok (log_one_if lf) else Ok (log_zero_if lf)) else
  if is_posinf rate then Ok (log_zero_if lf) else
  obind (dpois_log_compute_chk x rate) (fun v => Ok (exp_if v (negb lf))).

(** prob/ppois.ipp 34-47.  gcem::factorial of an llint_t multiplies in llint_t. *)
Definition ppois_term (rate : T) (r : Z) : outcome T :=
  obind (chk (zfact (Z.to_nat r))) (fun _ => Ok (powZ rate r / factorial r)).
Fixpoint ppois_recur_chk (fuel : nat) (x : Z) rate (r : Z) : option (outcome T) :=
  match fuel with
  | O => None
  | S fuel =>
    if (x =? 0)%Z then Some (Ok (ofZ 1)) else
    if (x =? 1)%Z then Some (Ok (ofZ 1 + rate)) else
    if (r =? 0)%Z then
      rbind (rlift (chk (r + 1))) (fun r1 =>
      rbind (ppois_recur_chk fuel x rate r1) (fun v => Some (Ok (ofZ 1 + v)))) else
    if (r <? x)%Z then
      rbind (rlift (ppois_term rate r)) (fun t =>
      rbind (rlift (chk (r + 1))) (fun r1 =>
      rbind (ppois_recur_chk fuel x rate r1) (fun v => Some (Ok (t + v)))))
    else Some (ppois_term rate r)
  end.
(** prob/ppois.ipp 52-59 *)
Definition ppois_compute_chk (x : Z) rate : outcome T :=
  if (rate >? ofZ 10) || (15 <? x)%Z
  then obind (chk (x + 1)) (fun x1 => Ok (ofZ 1 - incgamma (ofZ x1) rate))
  else match ppois_recur_chk (Z.to_nat x + 2) x rate 0 with
       | Some (Ok v) => Ok (exp (- rate) * v)
       | Some UB => UB
       | None => Ok nan
       end.
(** prob/ppois.ipp 64-76 *)
Definition ppois_chk (x : Z) rate (lf : bool) : outcome T :=
  if negb (pois_sanity rate) then Ok nan else
  if (x <? 0)%Z then Ok (log_zero_if lf) else
  if is_posinf rate then Ok (log_zero_if lf) else
  obind (ppois_compute_chk x rate) (fun v => Ok (log_if v lf)).

(** dens/dbinom.ipp 34-45 *)
Definition dbinom_log_compute_chk (x n : Z) prob : outcome T :=
  if (x =? 0)%Z then Ok (ofZ n * log (ofZ 1 - prob)) else
  if (x =? n)%Z then Ok (ofZ x * log prob) else
  obind (chk (n - x)) (fun d => Ok (log_binom n x + ofZ x * log prob + ofZ d * log (ofZ 1 - prob))).
(** dens/dbinom.ipp 61-80 *)
Definition dbinom_chk (x n : Z) prob (lf : bool) : outcome T :=
  if negb (binom_sanity n prob) then Ok nan else
  if ((x <? 0) || (n <? x))%Z then Ok (log_zero_if lf) else
  if (n =? 0)%Z then Ok (log_if (dbinom_limit_vals x) lf) else
  if (n =? 1)%Z then Ok (dbern x prob lf) else
  obind (dbinom_log_compute_chk x n prob) (fun v => Ok (exp_if v (negb lf))).

(** prob/pbinom.ipp 34-40 *)
Fixpoint pbinom_recur_chk (fuel : nat) (x n : Z) prob (count : Z) : option (outcome T) :=
  match fuel with
  | O => None
  | S fuel =>
    if (count =? x)%Z then Some (dbinom_chk count n prob false) else
    rbind (rlift (dbinom_chk count n prob false)) (fun d =>
    rbind (rlift (chk (count + 1))) (fun c1 =>
    rbind (pbinom_recur_chk fuel x n prob c1) (fun v => Some (Ok (d + v)))))
  end.
(** prob/pbinom.ipp 45-60 *)
Definition pbinom_chk (x n : Z) prob (lf : bool) : outcome T :=
  if negb (binom_sanity n prob) then Ok nan else
  if (x <? 0)%Z then Ok (log_zero_if lf) else
  if (n <=? x)%Z then Ok (log_if (ofZ 1) lf) else
  if (n =? 1)%Z then Ok (pbern x prob lf) else
  match pbinom_recur_chk (Z.to_nat x + 1) x n prob 0 with
  | Some (Ok v) => Ok (log_if v lf)
  | Some UB => UB
  | None => Ok nan
  end.

(** quant/qbinom.ipp 34-40 *)
Fixpoint qbinom_recur_chk (fuel : nat) p (n : Z) prob value (count : Z) : option (outcome T) :=
  match fuel with
  | O => None
  | S fuel =>
    if value <? p then
      rbind (rlift (pbinom_chk count n prob false)) (fun v =>
      rbind (rlift (chk (count + 1))) (fun c1 => qbinom_recur_chk fuel p n prob v c1))
    else Some (obind (chk (count - 1)) (fun c => Ok (ofZ c)))
  end.
(** quant/qbinom.ipp 45-60 *)
Definition qbinom_run_chk (fuel : nat) p (n : Z) prob : option (outcome T) :=
  if negb (binom_sanity n prob) then Some (Ok nan) else
  if negb (prob_val_check p) then Some (Ok nan) else
  if p =? ofZ 0 then Some (Ok (ofZ 0)) else
  if p =? ofZ 1 then Some (Ok (ofZ n)) else
  qbinom_recur_chk fuel p n prob (ofZ 0) 0.

(** quant/qpois.ipp 34-43 *)
Fixpoint qpois_search_chk (fuel : nat) p rate value (count : Z) : option (outcome T) :=
  match fuel with
  | O => None
  | S fuel =>
    if value <=? p then
      rbind (rlift (ppois_chk count rate false)) (fun v =>
      rbind (rlift (chk (count + 1))) (fun c1 => qpois_search_chk fuel p rate v c1))
    else if (0 <? count)%Z then Some (obind (chk (count - 1)) (fun c => Ok (ofZ c))) else Some (Ok (ofZ 0))
  end.
(** quant/qpois.ipp 48-52, 57-61, 66-86.  [trunc] is the conversion of a floating value to llint_t,
    [None] where it is undefined. *)
Definition qpois_run_chk (trunc : T -> option Z) (fuel : nat) p rate : option (outcome T) :=
  if negb (pois_sanity rate) then Some (Ok nan) else
  if negb (prob_val_check p) then Some (Ok nan) else
  if p =? ofZ 0 then Some (Ok (ofZ 0)) else
  if epsilon >? rate then Some (Ok (ofZ 0)) else
  if p =? ofZ 1 then Some (Ok pinf) else
  if rate <? ofZ 11 then qpois_search_chk fuel p rate (ofZ 0) 0 else
  match trunc (qpois_normal_approx p rate) with
  | Some start => rbind (rlift (ppois_chk start rate false)) (fun v => qpois_search_chk fuel p rate v start)
  | None => Some UB
  end.

(** misc/internal_fns/statslib_defs.hpp 37-72, 125-132: vals_in[i], of a floating type, is passed to
    a parameter of type llint_t. *)
Fixpoint vec_chk (trunc : T -> option Z) (f : Z -> outcome T) (vals : list T) : outcome (list T) :=
  match vals with
  | [] => Ok []
  | v :: vs =>
    match trunc v with
    | None => UB
    | Some z => obind (f z) (fun w => obind (vec_chk trunc f vs) (fun ws => Ok (w :: ws)))
    end
  end.
End Ints.
