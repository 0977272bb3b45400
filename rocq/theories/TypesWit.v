(** Concrete instances for the statements about argument types. *)
From Coq Require Import ZArith List Reals Lra Lia Bool.
From Verif Require Import Num ER ERTac Dens Rand Vec Types SpecTypes TypesProof IntsER SpecER B64.
From Flocq Require Import IEEE754.BinarySingleNaN.
Import ListNotations.

(** integers, and extended reals for the floating types *)
Definition er_el (t : cty) : Type := match t with I _ => Z | _ => ER end.
Definition er_cast (s t : cty) : er_el s -> er_el t :=
  match s, t with
  | I _, I _ => fun v => v
  | I _, (Flt | Dbl | LDbl) => fun v => Fin (IZR v)
  | (Flt | Dbl | LDbl), (Flt | Dbl | LDbl) => fun v => v
  | (Flt | Dbl | LDbl), I _ => fun _ => 0%Z
  end.
Lemma er_cast_id t v : er_cast t t v = v.
Proof. now destruct t. Qed.
Definition er_ar : Arith := {| el := er_el; cast := er_cast; cast_id := er_cast_id |}.
Definition fn3 (f : ER -> ER -> ER -> ER) (t : cty) : list (er_el t) -> er_el t :=
  match t with
  | I _ => fun _ => 0%Z
  | _ => fun l => match l with [x; y; z] => f x y z | _ => NaN end
  end.
Definition zarg (i : ity) (z : Z) : arg er_ar := existT er_el (I i) z.
Definition darg (x : ER) : arg er_ar := existT er_el Dbl x.
(** a uniform source for the extended reals: constant 1/2 *)
Definition half_rng : Rng ER unit :=
  {| g_unif := fun a b e => (Fin (1 / 2), e); g_norm := fun e => (Fin 0, e);
     g_next := fun a b => a; g_mk := fun _ => tt |}.
Lemma half_unif (S : SF) u e' : runif (N:=ER_Num S) half_rng (Fin 0) (Fin 1) tt = (u, e') -> exists r, u = Fin r /\ (0 < r)%R.
Proof.
  unfold runif. destruct (negb _) eqn:E.
  - exfalso. revert E. un_cls. er_arith. rdecide. discriminate.
  - cbn. intros H. injection H as <- _. exists (1 / 2)%R. split; [reflexivity|lra].
Qed.
Lemma rradem_unsigned_wit : forall (S : SF) (inf : Z -> bool), exists (E : Type) (G : Rng ER E) (e : E), forall i : ity, ~ radem_signed i ->
  fst (rradem (N:=ER_Num S) G (Fin 0) e) = Fin (-1) /\ fst (rradem_int (N:=ER_Num S) inf G i 0 e) <> Fin (-1).
Proof.
  intros S inf. exists unit, half_rng, tt. intros i Hi. apply rradem_unsigned_bad; [auto|]. apply half_unif.
Qed.
Lemma rand_int_bad : forall (S : SF) (inf : Z -> bool) (i : ity), exists prob : Z,
  (forall (E : Type) (G : Rng ER E) (e : E),
    rbern_int (N:=ER_Num S) inf G i prob e = (Fin 0, e) /\ rbern (N:=ER_Num S) G (ofZ (Num:=ER_Num S) prob) e = (NaN, e)) /\
  (forall (E : Type) (G : Rng ER E) (e : E),
    rradem_int (N:=ER_Num S) inf G i prob e = (Fin 0, e) /\ rradem (N:=ER_Num S) G (ofZ (Num:=ER_Num S) prob) e = (NaN, e)) /\
  (forall (E : Type) (G : Rng ER E) (e : E),
    rbinom_int (N:=ER_Num S) inf G i 3 prob e = (Fin 0, e) /\ rbinom (N:=ER_Num S) G 3 (ofZ (Num:=ER_Num S) prob) e = (NaN, e)).
Proof.
  intros S inf i. exists 2%Z.
  assert (B1 : Sanity.bern_sanity (N:=ER_Num S) (ofZ (Num:=ER_Num S) 2) = false) by (un_cls; er_arith; rdecide; reflexivity).
  assert (B2 : Sanity.radem_sanity (N:=ER_Num S) (ofZ (Num:=ER_Num S) 2) = false) by (un_cls; er_arith; rdecide; reflexivity).
  assert (B3 : Sanity.binom_sanity (N:=ER_Num S) 3 (ofZ (Num:=ER_Num S) 2) = false) by (un_cls; er_arith; rdecide; reflexivity).
  repeat split.
  - rewrite rbern_int_bad by lia. reflexivity.
  - unfold rbern. now rewrite B1.
  - rewrite rradem_int_bad by lia. reflexivity.
  - unfold rradem. now rewrite B2.
  - rewrite rbinom_int_bad by lia. reflexivity.
  - unfold rbinom. now rewrite B3.
Qed.
