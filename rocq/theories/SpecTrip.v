(** Parameters for which the round trip through a quantile function and back is followed. *)
From Coq Require Import ZArith Reals.
From Flocq Require Import Core IEEE754.BinarySingleNaN.
From Verif Require Import B64 SpecAcc.
Local Open Scope R_scope.

(** 2^400 *)
Definition big : R := bpow radix2 400.
(** a location and a scale whose sums, products and quotients stay far from overflow and underflow *)
Definition usual (mu sigma : b64) : Prop :=
  finite mu /\ positive sigma /\ Rabs (B2R mu) <= big /\ / big <= B2R sigma <= big.
(** how large the location is compared with the scale *)
Definition offset (mu sigma : b64) : R := Rabs (B2R mu) / B2R sigma.
