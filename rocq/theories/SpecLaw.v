(** Vocabulary for the distribution of samplers that consume a standard normal z and a uniform u:
    probabilities of regions of the (z,u) plane, as integrals.  Nothing here refers to the model of
    the code. *)
From Coq Require Import Reals Lra List Bool.
From Coquelicot Require Import Coquelicot.
From Verif Require Import Spec SpecSF.
Import ListNotations.
Local Open Scope list_scope.
Local Open Scope R_scope.

(** z standard normal, u uniform on (0,1), independent; [h z] in [0,1] is the length of the set of
    the u that are in the region above z.  [normal_mass A B h m]: the part of the region with z
    between the limits A and B has probability m. *)
Definition normal_mass (A B : (R -> Prop) -> Prop) (h : R -> R) (m : R) : Prop :=
  is_RInt_gen (fun z => norm_pdf 0 1 z * h z) A B m.

(** Rejection: a round is accepted with a value <= x with probability [q x] and accepted at all with
    probability [K]; rounds are independent.  [within n x]: a value <= x is returned within n rounds. *)
Fixpoint within (K : R) (q : R -> R) (n : nat) (x : R) : R :=
  match n with O => 0 | S n => q x + (1 - K) * within K q n x end.

(** [region_mass A m]: the set of the (z,u) with [A z u] has probability m.  For each z the set of
    the u in (0,1) is the interval from 0 to [h z], with or without its end. *)
Definition region_mass (A : R -> R -> Prop) (m : R) : Prop :=
  exists h : R -> R, (forall z, 0 <= h z <= 1) /\
    (forall z u, 0 < u < 1 -> (u < h z -> A z u) /\ (A z u -> u <= h z)) /\
    normal_mass (Rbar_locally m_infty) (Rbar_locally p_infty) h m.

(** [mixed f F m]: x has density f on (0,oo) and, given x, an event has probability [F x]; then the
    event has probability m. *)
Definition mixed (f F : R -> R) (m : R) : Prop :=
  is_RInt_gen (fun x => f x * F x) (at_right 0) (Rbar_locally p_infty) m.

(** n independent tosses with success probability p: the outcomes, their probabilities, and the
    probability of k successes *)
Fixpoint outcomes (n : nat) : list (list bool) :=
  match n with O => [nil] | S n => map (cons true) (outcomes n) ++ map (cons false) (outcomes n) end.
Fixpoint weight (p : R) (bs : list bool) : R :=
  match bs with nil => 1 | b :: bs => (if b then p else 1 - p) * weight p bs end.
Definition wins (bs : list bool) : nat := count_occ Bool.bool_dec bs true.
Definition win_prob (n : nat) (p : R) (k : nat) : R :=
  fold_right Rplus 0 (map (fun bs => if Nat.eqb (wins bs) k then weight p bs else 0) (outcomes n)).

(** Multinomial counts drawn one category after the other: the j-th count is binomial with the
    remaining number of trials and the conditional probability p_j / (1 - p_1 - ... - p_(j-1)).
    [chain_prob n c ps ks]: the probability of the counts ks. *)
Fixpoint chain_prob (n : nat) (c : R) (ps : list R) (ks : list nat) : R :=
  match ps, ks with
  | nil, nil => if Nat.eqb n 0 then 1 else 0
  | p :: ps, k :: ks => binom_pmf n (p / (1 - c)) k * chain_prob (n - k) (c + p) ps ks
  | _, _ => 0
  end.
Fixpoint nsum (ks : list nat) : nat := match ks with nil => O | k :: ks => (k + nsum ks)%nat end.
(** n! / (k_1! ... k_m!) p_1^k_1 ... p_m^k_m *)
Fixpoint multi_terms (ps : list R) (ks : list nat) : R :=
  match ps, ks with p :: ps, k :: ks => p ^ k / INR (fact k) * multi_terms ps ks | _, _ => 1 end.
Definition multinom_pmf (ps : list R) (ks : list nat) : R := INR (fact (nsum ks)) * multi_terms ps ks.
