(** The common type of two integral types is that of the usual arithmetic conversions. *)
From Coq Require Import ZArith Bool List Lia.
From Verif Require Import Num Vec Types SpecTypes.
Import ListNotations.

Lemma common2_usual i j : i <> j -> common2 (I i) (I j) = I (usual_conversion (int_promotion i) (int_promotion j)).
Proof. intros H. destruct i, j; try reflexivity; now elim H. Qed.
Lemma common2_same t : common2 t t = t.
Proof. unfold common2. destruct (cty_eq_dec t t); auto. now elim n. Qed.
(** if the common type is signed it holds every value of both types *)
Lemma common2_holds i j k : common2 (I i) (I j) = I k -> ity_signed k = true ->
  (fst (ity_range k) <= fst (ity_range i) /\ snd (ity_range i) <= snd (ity_range k) /\
   fst (ity_range k) <= fst (ity_range j) /\ snd (ity_range j) <= snd (ity_range k))%Z.
Proof. destruct i, j; cbn; intros [= <-]; cbn; intros H; try discriminate H; lia. Qed.
