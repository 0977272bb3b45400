(** The few laws about comparisons that the arithmetic-independent theorems
    (C01-C04, C19) need, and the two instances that satisfy them. *)
From Coq Require Import ZArith Bool Reals Lra.
From Flocq Require Import IEEE754.BinarySingleNaN.
From Verif Require Import Num ER ERTac B64.

Class NumLaws (T : Type) {N : Num T} : Prop := {
  is_nan_nan : is_nan nan = true;
  lt0_lt_eps : forall x : T, ltb x (ofZ 0) = true -> ltb x epsilon = true
}.

#[global] Instance ER_Laws (S : SF) (H : (0 <= sf_eps S)%R) : NumLaws ER (N := ER_Num S).
Proof.
  split; [reflexivity|]. intros [| | |x]; cbn; auto.
  rewrite !Rltb_true. lra.
Qed.

Lemma beps_SF : B2SF beps = SpecFloat.S754_finite false 4503599627370496 (-104).
Proof. unfold beps, binary_normalize. rewrite B2SF_SF2B. vm_compute. reflexivity. Qed.
Lemma b0_SF : B2SF (bofZ 0) = SpecFloat.S754_zero false.
Proof. vm_compute. reflexivity. Qed.
#[global] Instance B64_Laws (F : TF) : NumLaws b64 (N := B64_Num F).
Proof.
  split; [reflexivity|]. intros x. change (Bltb x (bofZ 0) = true -> Bltb x beps = true).
  unfold Bltb. rewrite beps_SF, b0_SF.
  intros H. destruct x as [s|s| |s m e B]; [destruct s..| |destruct s]; cbv in H; try discriminate H;
  reflexivity.
Qed.
