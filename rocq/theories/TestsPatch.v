(** Every backend with the limits of SpecTests.v is equal to its patched version, in which the limits
    hold by computation.  [patch] has no counterpart in the code: it is a device of the proofs. *)
From Coq Require Import ZArith QArith Bool List FunctionalExtensionality.
From Verif Require Import Num B64 SpecTests B64Exec.
From Flocq Require Import IEEE754.BinarySingleNaN.

Definition is_one (x : b64) : bool :=
  match x with B754_finite false m e _ => Pos.eqb m 4503599627370496 && Z.eqb e (-52) | _ => false end.
Lemma is_one_eq x : is_one x = true -> x = bofZ 1.
Proof.
  destruct x as [| | | [|] m e Hb]; cbn [is_one]; try discriminate. intro E.
  apply andb_true_iff in E. destruct E as [E1 E2].
  apply Pos.eqb_eq in E1. apply Z.eqb_eq in E2. subst.
  apply B2SF_inj. vm_compute. reflexivity.
Qed.

Definition patch (F : TF) : TF := {|
  t_exp := fun x => match x with
    | B754_nan => B754_nan | B754_zero _ => bofZ 1
    | B754_infinity true => B754_zero false | B754_infinity false => x | _ => t_exp F x end;
  t_log := fun x => match x with
    | B754_nan => B754_nan | B754_zero _ => ninf64 | B754_infinity false => x
    | _ => if is_one x then B754_zero false else t_log F x end;
  t_expm1 := fun x => match x with
    | B754_nan => B754_nan | B754_zero _ => x
    | B754_infinity true => bofZ (-1) | B754_infinity false => x | _ => t_expm1 F x end;
  t_log1p := fun x => match x with B754_nan | B754_zero _ => x | _ => t_log1p F x end;
  t_pow := t_pow F; t_powZ := t_powZ F;
  t_atan := fun x => match x with B754_nan => x | _ => t_atan F x end;
  t_tan := fun x => match x with B754_zero _ => x | _ => t_tan F x end;
  t_tanh := t_tanh F;
  t_erf := fun x => match x with
    | B754_nan | B754_zero _ => x
    | B754_infinity true => bofZ (-1) | B754_infinity false => bofZ 1 | _ => t_erf F x end;
  t_erf_inv := fun x => match x with B754_zero _ => x | _ => t_erf_inv F x end;
  t_lgamma := t_lgamma F; t_incgamma := t_incgamma F; t_incgamma_inv := t_incgamma_inv F;
  t_incbeta := t_incbeta F; t_incbeta_inv := t_incbeta_inv F;
  t_log_binom := t_log_binom F; t_factorial := t_factorial F;
  t_PI := blit (3141592653589793 # 1000000000000000);
  t_LOG_2PI := t_LOG_2PI F; t_LOG_2 := t_LOG_2 F; t_LOG_PI := t_LOG_PI F; t_SQRT_2 := blit (14142135623730951 # 10000000000000000);
  t_SQRT_HALF_PI := t_SQRT_HALF_PI F
|}.

Lemma mk_eq f1 f2 f3 f4 f5 f6 f7 f8 f9 f10 f11 f12 f13 f14 f15 f16 f17 f18 f19 f20 f21 f22 f23 f24 g1 g2 g3 g4 g7 g8 g10 g11 g19 g23 :
  f1 = g1 -> f2 = g2 -> f3 = g3 -> f4 = g4 -> f7 = g7 -> f8 = g8 -> f10 = g10 -> f11 = g11 ->
  f19 = g19 -> f23 = g23 ->
  mkTF f1 f2 f3 f4 f5 f6 f7 f8 f9 f10 f11 f12 f13 f14 f15 f16 f17 f18 f19 f20 f21 f22 f23 f24 =
  mkTF g1 g2 g3 g4 f5 f6 g7 g8 f9 g10 g11 f12 f13 f14 f15 f16 f17 f18 g19 f20 f21 f22 g23 f24.
Proof. intros -> -> -> -> -> -> -> -> -> ->. reflexivity. Qed.

Lemma patch_id F : limits F -> patch F = F.
Proof.
  intros [Hen He0 Hem Hep Hln Hl0 Hlp Hl1 Hxn Hx0 Hxm Hxp Hpn Hp0 Hrn Hr0 Hrm Hrp Hri Han Ht0 HPI Hs2].
  destruct F as [f1 f2 f3 f4 f5 f6 f7 f8 f9 f10 f11 f12 f13 f14 f15 f16 f17 f18 f19 f20 f21 f22 f23 f24]. unfold patch.
  cbn [t_exp t_log t_expm1 t_log1p t_pow t_powZ t_atan t_tan t_tanh t_erf t_erf_inv t_lgamma
       t_incgamma t_incgamma_inv t_incbeta t_incbeta_inv t_log_binom t_factorial t_PI t_LOG_2PI
       t_LOG_2 t_LOG_PI t_SQRT_2 t_SQRT_HALF_PI] in *.
  assert (E1 : forall x, x = bofZ 1 -> f2 x = B754_zero false) by (intros x ->; exact Hl1).
  clear Hl1.
  apply mk_eq; try (apply functional_extensionality; intros [s | [|] | | s m e Hb]);
    try (symmetry; solve [apply He0 | apply Hl0 | apply Hx0 | apply Hp0 | apply Hr0 | apply Hri
                         | apply Ht0 | assumption]);
    try match goal with |- ?x = ?x => exact (eq_refl x) end.
  - reflexivity.
  - destruct (is_one (B754_finite s m e Hb)) eqn:E; [| reflexivity].
    symmetry. apply E1. apply is_one_eq. exact E.
Qed.

Lemma TFX_limits : limits TFX.
Proof. split; try (intros [|]); first [apply B2SF_inj; vm_compute; reflexivity | vm_compute; reflexivity]. Qed.

(** [all_pass] by computation *)
Lemma all_pass_b l : forallb snd l = true -> all_pass l.
Proof. unfold all_pass. intro H. apply Forall_forall. apply forallb_forall. exact H. Qed.
