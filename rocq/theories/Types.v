(** Argument and result types: misc/statslib_options.hpp 80-90 ([return_t], [common_t],
    [common_return_t]) and the [_type_check] wrappers of dens/, prob/, quant/ and rand/, which
    convert every argument to [common_return_t] with static_cast and call the function there.

    The arithmetic types of C++ with the widths of LP64 (Linux, macOS); wchar_t, char16_t and
    char32_t are left out. *)
From Coq Require Import ZArith Bool List Lia Permutation.
From Flocq Require Import IEEE754.BinarySingleNaN.
From Verif Require Import Num Sanity Dens B64 Rand Vec.
Import ListNotations.

Inductive ity := Bool | Char | SChar | UChar | Short | UShort | Int | UInt | Long | ULong | LLong | ULLong.
Inductive cty := I (i : ity) | Flt | Dbl | LDbl.
Definition cty_eq_dec : forall a b : cty, {a = b} + {a <> b}.
Proof. decide equality. decide equality. Defined.

(** integral promotion, and the usual arithmetic conversions on promoted types *)
Definition promote (i : ity) : ity :=
  match i with Bool | Char | SChar | UChar | Short | UShort => Int | i => i end.
Definition int_common (a b : ity) : ity :=
  match a, b with
  | ULLong, _ | _, ULLong => ULLong
  | LLong, ULong | ULong, LLong => ULLong
  | LLong, _ | _, LLong => LLong
  | ULong, _ | _, ULong => ULong
  | Long, _ | _, Long => Long
  | UInt, _ | _, UInt => UInt
  | _, _ => Int
  end.
(** std::common_type of two types: the type itself if they agree, else that of the conditional
    operator; of more, from the left *)
Definition common2 (a b : cty) : cty :=
  if cty_eq_dec a b then a else
  match a, b with
  | LDbl, _ | _, LDbl => LDbl
  | Dbl, _ | _, Dbl => Dbl
  | Flt, _ | _, Flt => Flt
  | I i, I j => I (int_common (promote i) (promote j))
  end.
Definition common_t (t : cty) (ts : list cty) : cty := fold_left common2 ts t.
Definition return_t (t : cty) : cty := match t with I _ => Dbl | t => t end.
Definition common_return_t (t : cty) (ts : list cty) : cty := return_t (common_t t ts).

(** Values of the arithmetic types and static_cast between them *)
Record Arith := {
  el : cty -> Type;
  cast : forall s t : cty, el s -> el t;
  cast_id : forall t v, cast t t v = v
}.
Section Call.
Variable A : Arith.
Definition arg := {t : cty & el A t}.
Definition cast_to (t : cty) (a : arg) : el A t := cast A (projT1 a) t (projT2 a).
(** a [_type_check] wrapper around [f], which is instantiated at the common type *)
Definition call (f : forall t, list (el A t) -> el A t) (a : arg) (l : list arg) : arg :=
  let R := common_return_t (projT1 a) (map (@projT1 _ _) l) in
  existT (el A) R (f R (map (cast_to R) (a :: l))).
End Call.

(** The IEEE types: float, double and the 80-bit extended format for long double *)
#[global] Instance b32_prec_gt_0 : FLX.Prec_gt_0 24 := eq_refl.
#[global] Instance b32_prec_lt_emax : Prec_lt_emax 24 128 := eq_refl.
#[global] Instance b80_prec_gt_0 : FLX.Prec_gt_0 64 := eq_refl.
#[global] Instance b80_prec_lt_emax : Prec_lt_emax 64 16384 := eq_refl.
Definition conv {p e} p' e' (H1 : FLX.Prec_gt_0 p') (H2 : Prec_lt_emax p' e') (x : binary_float p e) : binary_float p' e' :=
  match x with
  | B754_zero s => B754_zero s
  | B754_infinity s => B754_infinity s
  | B754_nan => B754_nan
  | B754_finite s m ex _ => binary_normalize p' e' H1 H2 mode_NE (if s then Zneg m else Zpos m) ex s
  end.
(** the width of an integral type: bits and signedness *)
Definition ity_range (i : ity) : Z * Z :=
  match i with
  | Bool => (0, 2)
  | Char | SChar => (- 2 ^ 7, 2 ^ 7) | UChar => (0, 2 ^ 8)
  | Short => (- 2 ^ 15, 2 ^ 15) | UShort => (0, 2 ^ 16)
  | Int => (- 2 ^ 31, 2 ^ 31) | UInt => (0, 2 ^ 32)
  | Long | LLong => (- 2 ^ 63, 2 ^ 63) | ULong | ULLong => (0, 2 ^ 64)
  end%Z.
Definition ieee_el (t : cty) : Type :=
  match t with
  | I _ => Z | Flt => binary_float 24 128 | Dbl => b64 | LDbl => binary_float 64 16384
  end.
(** Conversions to a floating type; those to an integral type do not occur in a wrapper and are
    given the value 0. *)
Definition ieee_cast (s t : cty) : ieee_el s -> ieee_el t :=
  match s, t with
  | I _, I _ => fun v => v
  | I _, Flt => fun v => binary_normalize 24 128 _ _ mode_NE v 0 false
  | I _, Dbl => fun v => bofZ v
  | I _, LDbl => fun v => binary_normalize 64 16384 _ _ mode_NE v 0 false
  | Flt, Flt => fun v => v
  | Flt, Dbl => conv 53 1024 _ _
  | Flt, LDbl => conv 64 16384 _ _
  | Dbl, Flt => conv 24 128 _ _
  | Dbl, Dbl => fun v => v
  | Dbl, LDbl => conv 64 16384 _ _
  | LDbl, Flt => conv 24 128 _ _
  | LDbl, Dbl => conv 53 1024 _ _
  | LDbl, LDbl => fun v => v
  | _, I _ => fun _ => 0%Z
  end.
Lemma ieee_cast_id t v : ieee_cast t t v = v.
Proof. now destruct t. Qed.
Definition ieee : Arith := {| el := ieee_el; cast := ieee_cast; cast_id := ieee_cast_id |}.

(** ** The functions that use their parameter type without converting it first, at an integral T.

    For such a T, STLIM<T>::quiet_NaN() and STLIM<T>::infinity() are 0 (std::numeric_limits).
    [D] is double.  GCINT::is_inf at an integral type is external ([inf_int]); GCINT::is_nan
    compares its argument with itself and is false on integers. *)
(** conversion to an integral type (C++20; implementation-defined but the same in practice before
    that); to bool it is the comparison with 0 *)
Definition wrap (i : ity) (z : Z) : Z :=
  match i with
  | Bool => if (z =? 0)%Z then 0 else 1
  | i => let '(lo, hi) := ity_range i in (lo + (z - lo) mod (hi - lo))%Z
  end.
Definition cond_t (i j : ity) : ity := match common2 (I i) (I j) with I k => k | _ => i end.
Section Raw.
Context {D : Type} {N : Num D}.
Variable inf_int : Z -> bool.
Definition int_nan : Z := 0.
Definition int_inf : Z := 0.
(** misc/sanity_checks/bern.hpp 31-47 *)
Definition bern_sanity_int (prob : Z) : bool :=
  if inf_int prob then false else if (prob <? 0)%Z then false else if (1 <? prob)%Z then false else true.
(** misc/sanity_checks/radem.hpp 31-47 *)
Definition radem_sanity_int (prob : Z) : bool :=
  if inf_int prob then false else if (prob <? 0)%Z then false else if (1 <? prob)%Z then false else true.
(** misc/sanity_checks/binom.hpp 31-50 *)
Definition binom_sanity_int (n prob : Z) : bool :=
  if inf_int prob then false else
  if (n <? 0)%Z then false else if (prob <? 0)%Z then false else if (1 <? prob)%Z then false else true.

Section Draw.
Context {E : Type} (G : Rng D E).
Variable i : ity.                       (* T *)
(** rand/rbern.ipp 28-37: the conditional has the common type of T and bool; its value is then
    converted to double *)
Definition rbern_int (prob : Z) (e : E) : D * E :=
  if negb (bern_sanity_int prob) then (ofZ (wrap (cond_t i Bool) int_nan), e) else
  let '(u, e') := runif G (ofZ 0) (ofZ 1) e in
  (ofZ (wrap (cond_t i Bool) (if leb u (ofZ prob) then 1 else 0)), e').
(** rand/rradem.ipp 28-37: the common type of T and int *)
Definition rradem_int (prob : Z) (e : E) : D * E :=
  if negb (radem_sanity_int prob) then (ofZ (wrap (cond_t i Int) int_nan), e) else
  let '(u, e') := runif G (ofZ 0) (ofZ 1) e in
  (ofZ (wrap (cond_t i Int) (2 * (if leb u (ofZ prob) then 1 else 0) - 1)), e').
(** rand/rbinom.ipp 41-44 *)
Fixpoint rbinom_int_loop (n : nat) (prob : Z) (ret : D) (e : E) : D * E :=
  match n with
  | O => (ret, e)
  | S n' => let '(b, e') := rbern_int prob e in rbinom_int_loop n' prob (add ret b) e'
  end.
(** rand/rbinom.ipp 28-47 *)
Definition rbinom_int (n prob : Z) (e : E) : D * E :=
  if negb (binom_sanity_int n prob) then (ofZ int_nan, e) else
  rbinom_int_loop (Z.to_nat n) prob (ofZ 0) e.
End Draw.

(** prob/pbinom.ipp 67-74 returns T, not return_t<T>, and passes prob_par on as it is.  The result
    type of every internal function is T, so each double is converted back ([trunc]; [None] where
    the conversion is undefined).  T is not bool. *)
Variable trunc : D -> option Z.
Definition of_double (d : D) : outcome Z := match trunc d with Some z => Ok z | None => UB end.
(** misc/internal_fns/log_if.hpp 31-38, 40-47 *)
Definition log_if_int (x : outcome Z) (lf : bool) : outcome Z :=
  match x with UB => UB | Ok x => if lf then of_double (log (ofZ x)) else Ok x end.
Definition log_zero_if_int (lf : bool) : outcome Z := Ok (if lf then (- int_inf)%Z else 0%Z).
(** prob/pbinom.ipp 31-40: the sum of a double (dbinom) and a T is formed in double and converted *)
Fixpoint pbinom_int_recur (fuel : nat) (x n prob count : Z) : option (outcome Z) :=
  match fuel with
  | O => None
  | S fuel =>
    let d := dbinom count n (ofZ prob) false in
    if (count =? x)%Z then Some (of_double d) else
    match pbinom_int_recur fuel x n prob (count + 1) with
    | None => None
    | Some UB => Some UB
    | Some (Ok r) => Some (of_double (add d (ofZ r)))
    end
  end.
(** prob/pbinom.ipp 45-60, 67-74; as in [Dens.pbinom] the fuel suffices *)
Definition pbinom_int (x n prob : Z) (lf : bool) : outcome Z :=
  if negb (binom_sanity_int n prob) then Ok int_nan else
  if (x <? 0)%Z then log_zero_if_int lf else
  if (n <=? x)%Z then log_if_int (Ok 1%Z) lf else
  if (n =? 1)%Z then of_double (Prob.pbern x (ofZ prob) lf) else
  match pbinom_int_recur (Z.to_nat x + 1) x n prob 0 with
  | Some r => log_if_int r lf
  | None => UB
  end.
End Raw.
