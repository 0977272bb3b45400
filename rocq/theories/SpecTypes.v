(** Vocabulary of the statements about argument types. *)
From Coq Require Import ZArith List.
From Verif Require Import Num Vec Types.
Import ListNotations.

(** the widest floating type among the arguments, double if there is none *)
Definition widest (ts : list cty) : cty :=
  if in_dec cty_eq_dec LDbl ts then LDbl else
  if in_dec cty_eq_dec Dbl ts then Dbl else
  if in_dec cty_eq_dec Flt ts then Flt else Dbl.

Section Conv.
Variable A : Arith.
(** an argument converted with static_cast<R> *)
Definition conv_arg (R : cty) (a : arg A) : arg A := existT (el A) R (cast_to A R a).
(** static_cast<double> on the integral arguments *)
Definition promote_arg (a : arg A) : arg A := match projT1 a with I _ => conv_arg Dbl a | _ => a end.
Definition int_or_double (a : arg A) : Prop := projT1 a = Dbl \/ exists i, projT1 a = I i.
End Conv.
(** the values of an integer that are probabilities *)
Definition valid_prob (prob : Z) : Prop := (prob = 0 \/ prob = 1)%Z.
(** the types for which the common type with int is signed *)
Definition radem_signed (i : ity) : Prop := match i with UInt | ULong | ULLong => False | _ => True end.
(** the integral conversions of the C++ standard ([conv.rank], [conv.prom], [expr.arith.conv]) on LP64,
    written with conversion ranks *)
Definition ity_rank (i : ity) : Z :=
  match i with Bool => 0 | Char | SChar | UChar => 1 | Short | UShort => 2 | Int | UInt => 3 | Long | ULong => 4 | LLong | ULLong => 5 end%Z.
Definition ity_signed (i : ity) : bool := match i with Char | SChar | Short | Int | Long | LLong => true | _ => false end.
Definition ity_bits (i : ity) : Z :=
  match i with Bool => 1 | Char | SChar | UChar => 8 | Short | UShort => 16 | Int | UInt => 32 | _ => 64 end%Z.
Definition ity_unsigned (i : ity) : ity :=
  match i with Char | SChar => UChar | Short => UShort | Int => UInt | Long => ULong | LLong => ULLong | i => i end.
(** a type of lower rank than int becomes int, which holds all its values *)
Definition int_promotion (i : ity) : ity := if (ity_rank i <? ity_rank Int)%Z then Int else i.
(** u unsigned and s signed *)
Definition mixed_common (u s : ity) : ity :=
  if (ity_rank s <=? ity_rank u)%Z then u else if (ity_bits u <? ity_bits s)%Z then s else ity_unsigned s.
Definition usual_conversion (a b : ity) : ity :=
  if Bool.eqb (ity_signed a) (ity_signed b) then (if (ity_rank a <=? ity_rank b)%Z then b else a)
  else if ity_signed b then mixed_common a b else mixed_common b a.
