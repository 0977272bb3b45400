(** An executable backend for the double-precision model.

    The record [TF] of B64.v leaves the functions of gcem and std arbitrary.  [TFX] fills it with
    short double-precision programs (range reduction and series, continued fraction, regula
    falsi, Newton's method).  They are not gcem's algorithms and nothing is proved about their accuracy:
    they exist so that the model can be run, and [TFX] serves as the witness that a backend with
    the limits stated in SpecTests.v exists and passes the project's own tests. *)
From Coq Require Import ZArith QArith Bool List.
From Verif Require Import Num B64.
From Flocq Require Import IEEE754.BinarySingleNaN.
Import ListNotations.

Local Notation "x ++ y" := (badd x y).
Local Notation "x -- y" := (bsub x y) (at level 50, left associativity).
Local Notation "x ** y" := (bmul x y) (at level 40, left associativity).
Local Notation "x // y" := (bdiv x y) (at level 40, left associativity).
Local Notation z := bofZ.
Local Notation "x <! y" := (Bltb x y) (at level 70).

Definition xinf : b64 := B754_infinity false.
Definition xninf : b64 := B754_infinity true.
Definition xnan : b64 := B754_nan.
Definition xln2 : b64 := blit (6931471805599453 # 10000000000000000).
Definition xpi : b64 := blit (3141592653589793 # 1000000000000000).
Definition xsq : b64 := blit (7071067811865476 # 10000000000000000).

(** Horner evaluation, the constant coefficient first *)
Fixpoint xhorner (cs : list b64) (x : b64) : b64 :=
  match cs with [] => z 0 | c :: cs => badd c (x ** xhorner cs x) end.

(** 1, 1/2!, 1/3!, ... *)
Fixpoint xfact (n : nat) (k : Z) (c : b64) : list b64 :=
  match n with O => [] | S n => c :: xfact n (k + 1) (c // z k) end.
Definition xexpc := xfact 16 1 (z 1).
Definition xexp_core (x : b64) : b64 :=
  let k := Btrunc ((x // xln2) ++ (if x <! z 0 then blit (-1 # 2) else blit (1 # 2))) in
  Bldexp mode_NE (xhorner xexpc (x -- z k ** xln2)) k.
Definition xexp (x : b64) : b64 :=
  if bisnan x then xnan else
  if z 710 <! x then xinf else if x <! z (-746) then z 0 else
  if Beqb x (z 0) then z 1 else xexp_core x.

(** 1, 1/3, 1/5, ... *)
Fixpoint xodd (n : nat) (k : Z) : list b64 :=
  match n with O => [] | S n => (z 1 // z k) :: xodd n (k + 2) end.
Definition xlogc := xodd 16 1.
Definition xlog (x : b64) : b64 :=
  if bisnan x then xnan else
  if x <! z 0 then xnan else if Beqb x (z 0) then xninf else if bisposinf x then xinf else
  if Beqb x (z 1) then z 0 else
  let (m, e) := Bfrexp x in
  let (m, e) := if m <! xsq then (m ++ m, (e - 1)%Z) else (m, e) in
  let s := (m -- z 1) // (m ++ z 1) in
  (z e ** xln2) ++ (z 2 ** s ** xhorner xlogc (s ** s)).
Definition xlog1p (x : b64) : b64 :=
  if Babs x <! blit (1 # 10000)
  then x ** (z 1 -- x ** (blit (1 # 2) -- x ** (blit (1 # 3) -- x ** blit (1 # 4))))
  else xlog (z 1 ++ x).
Definition xexpm1 (x : b64) : b64 :=
  if Babs x <! blit (1 # 10000)
  then x ** (z 1 ++ x ** (blit (1 # 2) ++ x ** (blit (1 # 6) ++ x ** blit (1 # 24))))
  else xexp x -- z 1.

Fixpoint xpow_pos (x : b64) (n : positive) : b64 :=
  match n with
  | xH => x
  | xO n => let y := xpow_pos x n in y ** y
  | xI n => let y := xpow_pos x n in y ** y ** x
  end.
Definition xpowZ (x : b64) (n : Z) : b64 :=
  match n with
  | Z0 => z 1 | Zpos p => xpow_pos x p | Zneg p => z 1 // xpow_pos x p
  end.
Definition xpow (x y : b64) : b64 :=
  if Beqb y (z 0) then z 1 else
  if Beqb x (z 1) then z 1 else
  xexp (y ** xlog x).

(** arctangent by two half-angle steps *)
Definition xhalf (x : b64) : b64 := x // (z 1 ++ Bsqrt mode_NE (z 1 ++ x ** x)).
Definition xatanc := xodd 24 1.
Definition xatan (x : b64) : b64 :=
  if bisnan x then xnan else
  if bisposinf x then xpi // z 2 else if bisneginf x then Bopp (xpi // z 2) else
  let core y := let h := xhalf (xhalf y) in z 4 ** h ** xhorner xatanc (Bopp (h ** h)) in
  if z 1 <! x then xpi // z 2 -- core (z 1 // x) else
  if x <! z (-1) then Bopp (xpi // z 2) -- core (z 1 // x) else core x.

(** sine and cosine series *)
Fixpoint xser (n : nat) (k : Z) (t x2 : b64) : b64 :=
  match n with
  | O => z 0
  | S n => badd t (xser n (k + 2) (Bopp (t ** x2) // z ((k + 1) * (k + 2))) x2)
  end.
Definition xtan (x : b64) : b64 :=
  if Beqb x (z 0) then x else
  let k := Btrunc ((x // xpi) ++ (if x <! z 0 then blit (-1 # 2) else blit (1 # 2))) in
  let r := x -- z k ** xpi in
  xser 16 1 r (r ** r) // xser 16 0 (z 1) (r ** r).
Definition xtanh (x : b64) : b64 := z 1 -- z 2 // (xexp (z 2 ** x) ++ z 1).

(** erf x = 2/sqrt(pi) exp(-x^2) (x + 2x^3/3 + 4x^5/15 + ...) *)
Fixpoint xerf_sum (n : nat) (k : Z) (t x2 s : b64) : b64 :=
  match n with
  | O => s
  | S n => let s' := badd s t in
           if Beqb s' s then s else xerf_sum n (k + 2) (t ** x2 ** z 2 // z (k + 2)) x2 s'
  end.
Definition x2sqrtpi : b64 := blit (11283791670955126 # 10000000000000000).
Definition xerf (x : b64) : b64 :=
  if bisnan x then xnan else if Beqb x (z 0) then x else
  if z 6 <! x then z 1 else if x <! z (-6) then z (-1) else
  x2sqrtpi ** xexp (Bopp (x ** x)) ** xerf_sum 300 1 x (x ** x) (z 0).
(** Newton's method from zero, on the concave side *)
Fixpoint xerf_newton (n : nat) (p x : b64) : b64 :=
  match n with
  | O => x
  | S n => let x' := badd x ((p -- xerf x) // (x2sqrtpi ** xexp (Bopp (x ** x)))) in
           if Babs (x' -- x) <! blit (1 # 100000000000000) then x' else xerf_newton n p x'
  end.
Definition xerf_inv (p : b64) : b64 :=
  if bisnan p then xnan else if Beqb p (z 0) then p else
  if z 1 <! Babs p then xnan else
  if Beqb p (z 1) then xinf else if Beqb p (z (-1)) then xninf else
  xerf_newton 60 p (z 0).

(** Stirling's series, after moving the argument beyond 12 *)
Fixpoint xlg_shift (n : nat) (x prod : b64) : b64 * b64 :=
  match n with
  | O => (x, prod)
  | S n => if x <! z 12 then xlg_shift n (x ++ z 1) (prod ** x) else (x, prod)
  end.
Definition xlgc : list b64 :=
  [blit (1 # 12); blit (-1 # 360); blit (1 # 1260); blit (-1 # 1680); blit (1 # 1188);
   blit (-691 # 360360)].
Definition xlgamma (x : b64) : b64 :=
  if bisnan x then xnan else
  if bisposinf x then xinf else if Bleb x (z 0) then xinf else
  let (y, p) := xlg_shift 20 x (z 1) in
  let i := z 1 // y in
  (y -- blit (1 # 2)) ** xlog y -- y ++ blit (9189385332046727 # 10000000000000000)
  ++ i ** xhorner xlgc (i ** i) -- xlog p.

(** regularised lower incomplete gamma function: the series with positive terms *)
Fixpoint xig_sum (n : nat) (a t x s : b64) : b64 :=
  match n with
  | O => s
  | S n => let s' := badd s t in
           if Beqb s' s then s else xig_sum n (a ++ z 1) (t ** x // (a ++ z 1)) x s'
  end.
Definition xincgamma (a x : b64) : b64 :=
  if bisnan a || bisnan x || (a <! z 0) || (x <! z 0) then xnan else
  if Beqb x (z 0) then z 0 else if Beqb a (z 0) then z 1 else
  if bisposinf x then z 1 else
  if (a ++ z 40 ++ z 20 ** Bsqrt mode_NE a) <! x then z 1 else
  xexp (a ** xlog x -- x -- xlgamma a) ** xig_sum 3000 a (z 1 // a) x (z 0).
(** regula falsi with the Illinois modification for f x = p; [side] is the end kept last *)
Fixpoint xsolve (n : nat) (f : b64 -> b64) (p lo flo hi fhi : b64) (side : Z) : b64 :=
  let m := (lo ** fhi -- hi ** flo) // (fhi -- flo) in
  match n with
  | O => m
  | S n =>
    let fm := f m -- p in
    if Babs fm <! blit (1 # 10000000000000) then m else
    if fm <! z 0
    then xsolve n f p m fm hi (if (side =? 1)%Z then fhi // z 2 else fhi) 1
    else xsolve n f p lo (if (side =? 2)%Z then flo // z 2 else flo) m fm 2
  end.
Fixpoint xgrow (n : nat) (f : b64 -> b64) (p hi : b64) : b64 :=
  match n with
  | O => hi
  | S n => if f hi <! p then xgrow n f p (hi ++ hi) else hi
  end.
Definition xincgamma_inv (a p : b64) : b64 :=
  if bisnan a || bisnan p || (a <! z 0) || (p <! z 0) || (z 1 <! p) then xnan else
  if Beqb p (z 0) then z 0 else if Beqb p (z 1) then xinf else
  let f := xincgamma a in
  let hi := xgrow 40 f p (z 1) in xsolve 60 f p (z 0) (Bopp p) hi (f hi -- p) 0.

(** regularised incomplete beta function: Lentz's continued fraction *)
Definition xlift (x : b64) : b64 :=
  if Babs x <! blit (1 # 10000000000000000000000) then blit (1 # 10000000000000000000000) else x.
Fixpoint xib_cf (n : nat) (m : Z) (a b x c d h : b64) : b64 :=
  match n with
  | O => h
  | S n =>
    let m2 := z (2 * m) in
    let aa := z m ** (b -- z m) ** x // ((a -- z 1 ++ m2) ** (a ++ m2)) in
    let d := z 1 // xlift (z 1 ++ aa ** d) in
    let c := xlift (z 1 ++ aa // c) in
    let h := h ** d ** c in
    let aa := Bopp ((a ++ z m) ** (a ++ b ++ z m) ** x) // ((a ++ m2) ** (a ++ z 1 ++ m2)) in
    let d := z 1 // xlift (z 1 ++ aa ** d) in
    let c := xlift (z 1 ++ aa // c) in
    let h := h ** d ** c in
    if Babs (d ** c -- z 1) <! blit (1 # 100000000000000) then h
    else xib_cf n (m + 1) a b x c d h
  end.
Definition xib_core (a b x : b64) : b64 :=
  let d := z 1 // xlift (z 1 -- (a ++ b) ** x // (a ++ z 1)) in
  xexp (xlgamma (a ++ b) -- xlgamma a -- xlgamma b ++ a ** xlog x ++ b ** xlog1p (Bopp x))
  ** xib_cf 300 1 a b x (z 1) d d // a.
Definition xincbeta (a b x : b64) : b64 :=
  if bisnan a || bisnan b || bisnan x || (x <! z 0) || (z 1 <! x) then xnan else
  if Beqb x (z 0) then z 0 else if Beqb x (z 1) then z 1 else
  if x <! (a ++ z 1) // (a ++ b ++ z 2) then xib_core a b x
  else z 1 -- xib_core b a (z 1 -- x).
Definition xincbeta_inv (a b p : b64) : b64 :=
  if bisnan a || bisnan b || bisnan p || (p <! z 0) || (z 1 <! p) then xnan else
  if Beqb p (z 0) then z 0 else if Beqb p (z 1) then z 1 else
  xsolve 60 (xincbeta a b) p (z 0) (Bopp p) (z 1) (z 1 -- p) 0.

Definition xlog_binom (n k : Z) : b64 :=
  xlgamma (z (n + 1)) -- xlgamma (z (k + 1)) -- xlgamma (z (n - k + 1)).
Definition xfactorial (n : Z) : b64 :=
  if (n <? 2)%Z then z 1 else
  fst (Pos.iter (fun '(r, k) => (r ** z k, (k + 1)%Z)) (z 1, 1%Z) (Z.to_pos n)).

Definition TFX : TF := {|
  t_exp := xexp; t_log := xlog; t_expm1 := xexpm1; t_log1p := xlog1p;
  t_pow := xpow; t_powZ := xpowZ; t_atan := xatan; t_tan := xtan; t_tanh := xtanh;
  t_erf := xerf; t_erf_inv := xerf_inv; t_lgamma := xlgamma;
  t_incgamma := xincgamma; t_incgamma_inv := xincgamma_inv;
  t_incbeta := xincbeta; t_incbeta_inv := xincbeta_inv;
  t_log_binom := xlog_binom; t_factorial := xfactorial;
  t_PI := xpi; t_LOG_2PI := blit (18378770664093453 # 10000000000000000); t_LOG_2 := xln2;
  t_LOG_PI := blit (11447298858494002 # 10000000000000000);
  t_SQRT_2 := blit (14142135623730951 # 10000000000000000);
  t_SQRT_HALF_PI := blit (12533141373155003 # 10000000000000000)
|}.
