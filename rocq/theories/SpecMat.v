(** Sums, averages and distances of finite sequences of reals.  Nothing here refers to the model. *)
From Coq Require Import Reals List.
Import ListNotations.
Local Open Scope R_scope.

Fixpoint Rsum (l : list R) : R := match l with [] => 0 | x :: l => x + Rsum l end.
Definition average (l : list R) : R := Rsum l / INR (length l).
(** the mean squared deviation from the average, and its version with n-1 in the denominator *)
Definition variance (l : list R) : R := average (map (fun x => (x - average l) ^ 2) l).
Definition sample_variance (l : list R) : R :=
  Rsum (map (fun x => (x - average l) ^ 2) l) / (INR (length l) - 1).
(** l1 distance of sequences of the same length *)
Definition dist1 (a b : list R) : R := Rsum (map (fun p => Rabs (fst p - snd p)) (combine a b)).
(** [out] are the partial sums of [l] *)
Definition partial_sums (l out : list R) : Prop :=
  length out = length l /\ forall i, (i < length l)%nat -> nth_error out i = Some (Rsum (firstn (S i) l)).
