(** What a distribution function, a quantile function and a density look like on binary64 numbers, and
    the order properties of the mathematical functions the library calls.  Only IEEE comparisons are
    used; [Bleb x y = true] says that neither number is a NaN and x <= y. *)
From Coq Require Import ZArith QArith Bool.
From Flocq Require Import IEEE754.BinarySingleNaN.
From Verif Require Import B64.

Definition plus_inf : b64 := B754_infinity false.
Definition minus_inf : b64 := B754_infinity true.
Declare Scope b64_scope.
Notation "x ≤ y" := (Bleb x y = true) (at level 70) : b64_scope.
Notation "x ≺ y" := (Bltb x y = true) (at level 70) : b64_scope.
Delimit Scope b64_scope with b64.
Local Open Scope b64_scope.

(** values in [0,1], never a NaN, and non-decreasing, over all doubles including the infinities *)
Definition b64_cdf (G : b64 -> b64) : Prop :=
  (forall x, x <> B754_nan -> bofZ 0 ≤ G x /\ G x ≤ bofZ 1) /\
  (forall x y, x ≤ y -> G x ≤ G y).
(** the same over the integers *)
Definition b64_cdfZ (G : Z -> b64) : Prop :=
  (forall x, bofZ 0 ≤ G x /\ G x ≤ bofZ 1) /\ (forall x y, (x <= y)%Z -> G x ≤ G y).
(** never a NaN and non-decreasing on [0,1] *)
Definition b64_quantile (Q : b64 -> b64) : Prop :=
  forall p q, bofZ 0 ≤ p -> p ≤ q -> q ≤ bofZ 1 -> Q p ≤ Q q.
(** never a NaN and not negative *)
Definition b64_density (d : b64 -> b64) : Prop :=
  forall x, x <> B754_nan -> bofZ 0 ≤ d x.

(** non-decreasing from [lo, hi] (no NaN there) into [a, b] *)
Definition b64_incr (lo hi a b : b64) (f : b64 -> b64) : Prop :=
  (forall x, lo ≤ x -> x ≤ hi -> a ≤ f x /\ f x ≤ b) /\
  (forall x y, lo ≤ x -> x ≤ y -> y ≤ hi -> f x ≤ f y).
(** a positive number other than infinity *)
Definition b64_pos (x : b64) : Prop := bofZ 0 ≺ x /\ x ≺ plus_inf.

(** ** the functions of the backend *)
(** odd-looking functions with values in [-1,1]: erf, tanh *)
Definition sym_fun (f : b64 -> b64) : Prop := b64_incr minus_inf plus_inf (bofZ (-1)) (bofZ 1) f.
(** the arc tangent is non-decreasing and at most half the constant used for pi *)
Definition atan_ok (F : TF) : Prop := b64_incr minus_inf plus_inf minus_inf plus_inf (t_atan F) /\
  b64_incr minus_inf plus_inf (Bopp (t_PI F)) (t_PI F) (fun x => bmul (bofZ 2) (t_atan F x)).
Definition log_ok (F : TF) : Prop := b64_incr (bofZ 0) plus_inf minus_inf plus_inf (t_log F).
Definition exp_ok (F : TF) : Prop := b64_incr minus_inf (bofZ 0) (bofZ 0) (bofZ 1) (t_exp F).
Definition expm1_ok (F : TF) : Prop := b64_incr minus_inf (bofZ 0) (bofZ (-1)) (bofZ 0) (t_expm1 F).
Definition pow_ok (F : TF) : Prop :=
  forall c, b64_pos c -> b64_incr (bofZ 0) plus_inf (bofZ 0) plus_inf (fun x => t_pow F x c).
Definition incgamma_ok (F : TF) : Prop :=
  forall a, b64_pos a -> b64_incr (bofZ 0) plus_inf (bofZ 0) (bofZ 1) (t_incgamma F a).
Definition incbeta_ok (F : TF) : Prop :=
  forall a b, b64_pos a -> b64_pos b -> b64_incr (bofZ 0) (bofZ 1) (bofZ 0) (bofZ 1) (t_incbeta F a b).
(** from 2^-52 to the largest finite number *)
Definition big_eps (c : b64) : Prop := Bleb beps c = true /\ Bltb c plus_inf = true.
(** ** the inverse functions of the backend *)
Definition erf_inv_ok (F : TF) : Prop := b64_incr (bofZ (-1)) (bofZ 1) minus_inf plus_inf (t_erf_inv F).
(** the tangent on [-h, h], where h is half the constant used for pi *)
Definition tan_ok (F : TF) : Prop :=
  b64_incr (Bopp (bmul (t_PI F) (blit (1#2)))) (bmul (t_PI F) (blit (1#2))) minus_inf plus_inf (t_tan F).
(** the logarithm on [0,1] is non-positive, and zero at one *)
Definition log01_ok (F : TF) : Prop := log_ok F /\ Beqb (t_log F (bofZ 1)) (bofZ 0) = true.
Definition log1p_ok (F : TF) : Prop := b64_incr (bofZ (-1)) (bofZ 0) minus_inf (bofZ 0) (t_log1p F).
Definition exp_all_ok (F : TF) : Prop := b64_incr minus_inf plus_inf (bofZ 0) plus_inf (t_exp F).
Definition incgamma_inv_ok (F : TF) : Prop :=
  forall a, b64_pos a -> b64_incr (bofZ 0) (bofZ 1) (bofZ 0) plus_inf (t_incgamma_inv F a).
Definition incbeta_inv_ok (F : TF) : Prop :=
  forall a b, b64_pos a -> b64_pos b -> b64_incr (bofZ 0) (bofZ 1) (bofZ 0) (bofZ 1) (t_incbeta_inv F a b).
(** no negative zero among the values on [0,1] *)
Definition incgamma_inv_pz (F : TF) : Prop :=
  forall a q, b64_pos a -> bofZ 0 ≤ q -> q ≤ bofZ 1 -> t_incgamma_inv F a q <> B754_zero true.
(** not NaN and not infinite *)
Definition b64_fin (x : b64) : Prop := minus_inf ≺ x /\ x ≺ plus_inf.
