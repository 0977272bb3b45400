(** Extended reals: exact real arithmetic with the IEEE special values.

    [ER] is the arithmetic in which the mathematical content of the library is
    stated.  Infinities and NaN follow IEEE 754 / the C++ math library.
    Simplifications, all recorded in DESIGN.md:
    - operations on finite values are exact (no rounding, no overflow);
    - there is one zero, and [x / 0] is [sign x * inf] ([0/0] is NaN), which is
      what IEEE gives for a positive zero;
    - the special functions come from a record [SF] of arbitrary functions; each
      theorem that depends on one of them says what it assumes about it;
    - [epsilon] and [min] are arbitrary reals of [SF]. *)

From Coq Require Import Reals ZArith QArith Bool Lra Psatz.
From Verif Require Import Num.
Local Open Scope R_scope.

Inductive ER := NaN | PInf | MInf | Fin (r : R).

Definition Rltb (a b : R) : bool := if Rlt_dec a b then true else false.
Definition Rleb (a b : R) : bool := if Rle_dec a b then true else false.
Definition Reqb (a b : R) : bool := if Req_EM_T a b then true else false.

Definition eneg (x : ER) : ER :=
  match x with NaN => NaN | PInf => MInf | MInf => PInf | Fin a => Fin (- a) end.
Definition eadd (x y : ER) : ER :=
  match x, y with
  | NaN, _ => NaN | _, NaN => NaN
  | PInf, MInf => NaN | MInf, PInf => NaN
  | PInf, _ => PInf | _, PInf => PInf
  | MInf, _ => MInf | _, MInf => MInf
  | Fin a, Fin b => Fin (a + b)
  end.
Definition esub (x y : ER) : ER :=
  match x, y with
  | NaN, _ => NaN | _, NaN => NaN
  | PInf, PInf => NaN | MInf, MInf => NaN
  | PInf, _ => PInf | _, PInf => MInf
  | MInf, _ => MInf | _, MInf => PInf
  | Fin a, Fin b => Fin (a - b)
  end.
(** [c * inf] *)
Definition scale_inf (c : R) (i : ER) : ER :=
  if Rlt_dec 0 c then i else if Rlt_dec c 0 then eneg i else NaN.
Definition emul (x y : ER) : ER :=
  match x, y with
  | NaN, _ => NaN | _, NaN => NaN
  | Fin a, Fin b => Fin (a * b)
  | Fin a, i => scale_inf a i
  | i, Fin b => scale_inf b i
  | PInf, PInf => PInf | MInf, MInf => PInf
  | PInf, MInf => MInf | MInf, PInf => MInf
  end.
Definition ediv (x y : ER) : ER :=
  match x, y with
  | NaN, _ => NaN | _, NaN => NaN
  | Fin a, Fin b => if Req_EM_T b 0 then scale_inf a PInf else Fin (a / b)
  | Fin _, _ => Fin 0
  | i, Fin b => if Rlt_dec b 0 then eneg i else i
  | _, _ => NaN
  end.
Definition eabs (x : ER) : ER :=
  match x with NaN => NaN | PInf => PInf | MInf => PInf | Fin a => Fin (Rabs a) end.
Definition eltb (x y : ER) : bool :=
  match x, y with
  | NaN, _ => false | _, NaN => false
  | PInf, _ => false
  | MInf, MInf => false | MInf, _ => true
  | Fin _, PInf => true | Fin _, MInf => false
  | Fin a, Fin b => Rltb a b
  end.
Definition eleb (x y : ER) : bool :=
  match x, y with
  | NaN, _ => false | _, NaN => false
  | MInf, _ => true
  | PInf, PInf => true | PInf, _ => false
  | Fin _, PInf => true | Fin _, MInf => false
  | Fin a, Fin b => Rleb a b
  end.
Definition eeqb (x y : ER) : bool :=
  match x, y with
  | PInf, PInf => true | MInf, MInf => true
  | Fin a, Fin b => Reqb a b
  | _, _ => false
  end.
Definition eisnan (x : ER) : bool := match x with NaN => true | _ => false end.
Definition eisposinf (x : ER) : bool := match x with PInf => true | _ => false end.
Definition eisneginf (x : ER) : bool := match x with MInf => true | _ => false end.
Definition elit (q : Q) : ER := Fin (IZR (Qnum q) / IZR (Zpos (Qden q))).

Definition eexp (x : ER) : ER :=
  match x with NaN => NaN | PInf => PInf | MInf => Fin 0 | Fin a => Fin (Rtrigo_def.exp a) end.
Definition elog (x : ER) : ER :=
  match x with
  | NaN => NaN | PInf => PInf | MInf => NaN
  | Fin a => if Rlt_dec a 0 then NaN else if Req_EM_T a 0 then MInf else Fin (ln a)
  end.
Definition eexpm1 (x : ER) : ER :=
  match x with
  | NaN => NaN | PInf => PInf | MInf => Fin (-1) | Fin a => Fin (Rtrigo_def.exp a - 1)
  end.
Definition elog1p (x : ER) : ER := elog (eadd (Fin 1) x).
Definition esqrt (x : ER) : ER :=
  match x with
  | NaN => NaN | PInf => PInf | MInf => NaN
  | Fin a => if Rlt_dec a 0 then NaN else Fin (R_sqrt.sqrt a)
  end.
Definition eatan (x : ER) : ER :=
  match x with
  | NaN => NaN | PInf => Fin (Rtrigo1.PI / 2) | MInf => Fin (- (Rtrigo1.PI / 2))
  | Fin a => Fin (Ratan.atan a)
  end.
Definition etan (x : ER) : ER := match x with Fin a => Fin (Rtrigo1.tan a) | _ => NaN end.
Definition etanh (x : ER) : ER :=
  match x with
  | NaN => NaN | PInf => Fin 1 | MInf => Fin (-1) | Fin a => Fin (Rtrigo_def.tanh a)
  end.

(** The functions supplied from outside the repository (gcem or std), with the
    two numeric_limits constants. *)
Record SF := mkSF {
  sf_eps : R;
  sf_tmin : R;
  sf_pow_special : ER -> ER -> ER;   (* pow outside base > 0, or base = 0 < exponent *)
  sf_erf : ER -> ER;
  sf_erf_inv : ER -> ER;
  sf_lgamma : ER -> ER;
  sf_incgamma : ER -> ER -> ER;
  sf_incgamma_inv : ER -> ER -> ER;
  sf_incbeta : ER -> ER -> ER -> ER;
  sf_incbeta_inv : ER -> ER -> ER -> ER
}.

Definition epow (S : SF) (x y : ER) : ER :=
  match x, y with
  | NaN, _ => NaN | _, NaN => NaN
  | Fin a, Fin b =>
    if Rlt_dec 0 a then Fin (Rpower a b) else
    if Req_EM_T a 0 then (if Rlt_dec 0 b then Fin 0 else
                          if Req_EM_T b 0 then Fin 1 else PInf)
    else sf_pow_special S x y
  | _, _ => sf_pow_special S x y
  end.
(** [pow(x, n)] with an integer exponent; only [n >= 0] occurs in the library. *)
Definition epowZ (S : SF) (x : ER) (n : Z) : ER :=
  match x with
  | NaN => NaN
  | Fin a => Fin (a ^ Z.to_nat n)
  | _ => sf_pow_special S x (Fin (IZR n))
  end.

#[global] Instance ER_Num (S : SF) : Num ER := {|
  add := eadd; sub := esub; mul := emul; div := ediv; neg := eneg; abs := eabs;
  ltb := eltb; leb := eleb; eqb := eeqb;
  ofZ := fun n => Fin (IZR n); lit := elit;
  nan := NaN; pinf := PInf; epsilon := Fin (sf_eps S); tmin := Fin (sf_tmin S);
  is_nan := eisnan; is_posinf := eisposinf; is_neginf := eisneginf;
  exp := eexp; log := elog; expm1 := eexpm1; log1p := elog1p; sqrt := esqrt;
  pow := epow S; powZ := epowZ S; atan := eatan; tan := etan; tanh := etanh;
  erf := sf_erf S; erf_inv := sf_erf_inv S; lgamma := sf_lgamma S;
  incgamma := sf_incgamma S; incgamma_inv := sf_incgamma_inv S;
  incbeta := sf_incbeta S; incbeta_inv := sf_incbeta_inv S;
  log_binom := fun n k => Fin (ln (Binomial.C (Z.to_nat n) (Z.to_nat k)));
  factorial := fun n => Fin (INR (fact (Z.to_nat n)));
  PI := Fin Rtrigo1.PI;
  LOG_2PI := Fin (ln (2 * Rtrigo1.PI));
  LOG_2 := Fin (ln 2);
  LOG_PI := Fin (ln Rtrigo1.PI);
  SQRT_2 := Fin (R_sqrt.sqrt 2);
  SQRT_HALF_PI := Fin (R_sqrt.sqrt (Rtrigo1.PI / 2))
|}.

(** Order on the non-NaN extended reals, used in statements. *)
Definition Ele (x y : ER) : Prop := eleb x y = true.
Definition Elt (x y : ER) : Prop := eltb x y = true.
