(** The real numbers as a field of the mathcomp library, so that its matrices, determinants and
    inverses can be used in the statements about the multivariate functions.
    Uses Coq.Logic.ClassicalEpsilon (constructive_indefinite_description). *)
From Coq Require Import Reals Lra ClassicalEpsilon FunctionalExtensionality.
From mathcomp Require Import all_ssreflect ssralg matrix.
Set Implicit Arguments. Unset Strict Implicit. Unset Printing Implicit Defensive.
Import GRing.Theory.

Definition eqr (x y : R) : bool := if Req_EM_T x y then true else false.
Lemma eqrP : Equality.axiom eqr.
Proof. by move=> x y; rewrite /eqr; case: Req_EM_T => H; constructor. Qed.
Canonical R_eqMixin := EqMixin eqrP.
Canonical R_eqType := Eval hnf in EqType R R_eqMixin.

Definition pickR (P : pred R) (n : nat) : option R :=
  let x := epsilon (inhabits R0) (fun x => P x) in if P x then Some x else None.
Fact pickR_some P n x : pickR P n = Some x -> P x.
Proof. by rewrite /pickR; case E: (P _) => // -[<-]. Qed.
Fact pickR_ex (P : pred R) : (exists x : R, P x) -> exists n, pickR P n.
Proof. by rewrite /pickR; move=> H; exists 0; rewrite (epsilon_spec (inhabits R0) (fun x => P x) H). Qed.
Fact pickR_ext (P Q : pred R) : P =1 Q -> pickR P =1 pickR Q.
Proof. by move=> H n; have -> : P = Q by apply: functional_extensionality. Qed.
Definition R_choiceMixin : choiceMixin R := Choice.Mixin pickR_some pickR_ex pickR_ext.
Canonical R_choiceType := Eval hnf in ChoiceType R R_choiceMixin.

Fact Rplus_A : associative Rplus. Proof. by move=> *; rewrite Rplus_assoc. Qed.
Definition R_zmodMixin := ZmodMixin Rplus_A Rplus_comm Rplus_0_l Rplus_opp_l.
Canonical R_zmodType := Eval hnf in ZmodType R R_zmodMixin.
Fact Rmult_A : associative Rmult. Proof. by move=> *; rewrite Rmult_assoc. Qed.
Fact R1_neq0 : R1 != R0. Proof. apply/eqP. exact R1_neq_R0. Qed.
Fact Rmult_D : left_distributive Rmult Rplus. Proof. by move=> x y z; rewrite Rmult_plus_distr_r. Qed.
Definition R_ringMixin := ComRingMixin Rmult_A Rmult_comm Rmult_1_l Rmult_D R1_neq0.
Canonical R_ringType := Eval hnf in RingType R R_ringMixin.
Canonical R_comRingType := Eval hnf in ComRingType R Rmult_comm.

Definition invr (x : R) : R := if x == R0 then R0 else Rinv x.
Fact mulVr' (x : R) : x != R0 -> Rmult (invr x) x = R1.
Proof. by rewrite /invr => H; rewrite (negbTE H) Rinv_l //; apply/eqP. Qed.
Fact invr0 : invr R0 = R0. Proof. by rewrite /invr eqxx. Qed.
Definition R_fieldUnitMixin := FieldUnitMixin mulVr' invr0.
Canonical R_unitRingType := Eval hnf in UnitRingType R R_fieldUnitMixin.
Canonical R_comUnitRingType := Eval hnf in [comUnitRingType of R].
Fact R_fieldMixin : GRing.Field.mixin_of [unitRingType of R]. Proof. by []. Qed.
Canonical R_idomainType := Eval hnf in IdomainType R (FieldIdomainMixin R_fieldMixin).
Canonical R_fieldType := Eval hnf in FieldType R R_fieldMixin.

(** the operations of the two libraries agree *)
Lemma addE (x y : R) : GRing.add x y = Rplus x y. Proof. by []. Qed.
Lemma mulE (x y : R) : GRing.mul x y = Rmult x y. Proof. by []. Qed.
