(** What "invalid argument" means, in terms of the comparisons of the argument
    type; independent of the library's own checks. *)
From Coq Require Import ZArith.
From Verif Require Import Num.

Definition NaNv {T} {N : Num T} (x : T) : Prop := is_nan x = true.
Definition negative {T} {N : Num T} (x : T) : Prop := ltb x (ofZ 0) = true.
(** NaN, below 0 or above 1 *)
Definition not_prob {T} {N : Num T} (p : T) : Prop :=
  is_nan p = true \/ ltb p (ofZ 0) = true \/ ltb (ofZ 1) p = true.
