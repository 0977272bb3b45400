(** C41: the result type is a floating type and integer arguments are converted to it, except for the functions that use their parameter type as it is. *)
From Coq Require Import ZArith List Permutation Reals Lra Lia.
From Verif Require Import Num Sanity Dens Rand Vec ER ERTac SpecER B64 Types SpecTypes TypesProof TypesConv TypesWit IntsER.
From Flocq Require Import IEEE754.BinarySingleNaN.
Import ListNotations.


(** [widest ts]: the widest floating type in [ts], double if there is none; [conv_arg A R a]: the
    argument [a] after static_cast<R>; [call A f a l]: a _type_check wrapper around [f]. *)

Theorem C41_type : forall (t : cty) (ts : list cty), common_return_t t ts = widest (t :: ts).
Proof. exact common_return_widest. Qed.
Print Assumptions C41_type.
Example C41_type_ex : common_return_t (I Int) [Flt; I ULLong] = Flt /\ common_return_t (I Int) [I UInt; I Bool] = Dbl /\
  common_return_t Flt [I LLong; Dbl; LDbl] = LDbl.
Proof. rewrite !C41_type. repeat split; reflexivity. Qed.

Theorem C41_integral : forall (i j : ity), i <> j -> common2 (I i) (I j) = I (usual_conversion (int_promotion i) (int_promotion j)).
Proof. exact common2_usual. Qed.
Print Assumptions C41_integral.
Example C41_integral_ex : common2 (I LLong) (I ULong) = I ULLong /\ common2 (I UShort) (I Short) = I Int /\
  common2 (I Int) (I UInt) = I UInt /\ common2 (I UInt) (I Long) = I Long /\ common2 (I Bool) (I ULLong) = I ULLong.
Proof. repeat split; rewrite C41_integral by discriminate; reflexivity. Qed.

Theorem C41_same : forall t : cty, common2 t t = t.
Proof. exact common2_same. Qed.
Print Assumptions C41_same.
Example C41_same_ex : common2 (I UShort) (I UShort) = I UShort /\ common2 LDbl LDbl = LDbl.
Proof. split; apply C41_same. Qed.

Theorem C41_holds : forall (i j k : ity), common2 (I i) (I j) = I k -> ity_signed k = true ->
  (fst (ity_range k) <= fst (ity_range i) /\ snd (ity_range i) <= snd (ity_range k) /\
   fst (ity_range k) <= fst (ity_range j) /\ snd (ity_range j) <= snd (ity_range k))%Z.
Proof. exact common2_holds. Qed.
Print Assumptions C41_holds.
Example C41_holds_ex : (snd (ity_range UInt) <= snd (ity_range Long))%Z.
Proof. apply (C41_holds UInt Long Long); reflexivity. Qed.
(** with an unsigned common type a negative value is lost *)
Example C41_holds_unsigned_ex : common2 (I Int) (I UInt) = I UInt /\ (fst (ity_range Int) < fst (ity_range UInt))%Z.
Proof. split; reflexivity. Qed.

Theorem C41_floating : forall (t : cty) (ts : list cty), exists p e : Z, ieee_el (common_return_t t ts) = binary_float p e.
Proof. exact common_return_floating. Qed.
Print Assumptions C41_floating.
Example C41_floating_ex : ieee_el (common_return_t (I Int) [I Long]) = binary_float 53 1024.
Proof. reflexivity. Qed.

Theorem C41_order : forall (t : cty) (ts : list cty) (s : cty) (ss : list cty), Permutation (t :: ts) (s :: ss) ->
  common_return_t t ts = common_return_t s ss.
Proof. exact common_return_perm. Qed.
Print Assumptions C41_order.
Example C41_order_ex : common_return_t (I Int) [Flt; Dbl] = common_return_t Dbl [I Int; Flt].
Proof. apply C41_order. apply (Permutation_trans (l':=[I Int; Dbl; Flt])); [apply perm_skip; apply perm_swap|apply perm_swap]. Qed.

Theorem C41_converted : forall (A : Arith) (f : forall t, list (el A t) -> el A t) (a : arg A) (l : list (arg A)),
  let R := common_return_t (projT1 a) (map (@projT1 _ _) l) in
  call A f a l = call A f (conv_arg A R a) (map (conv_arg A R) l).
Proof. exact call_converted. Qed.
Print Assumptions C41_converted.
Example C41_converted_ex (S : SF) : call er_ar (fn3 (fun x m s => dnorm (N:=ER_Num S) x m s true)) (zarg Int 1) [zarg UChar 0; darg (Fin 2)] =
  darg (dnorm (N:=ER_Num S) (Fin 1) (Fin 0) (Fin 2) true).
Proof. rewrite C41_converted. reflexivity. Qed.

Theorem C41_promoted : forall (A : Arith) (f : forall t, list (el A t) -> el A t) (a : arg A) (l : list (arg A)),
  Forall (int_or_double A) (a :: l) ->
  call A f a l = call A f (promote_arg A a) (map (promote_arg A) l).
Proof. exact call_promoted. Qed.
Print Assumptions C41_promoted.
Example C41_promoted_ex (S : SF) : call er_ar (fn3 (fun x m s => dnorm (N:=ER_Num S) x m s false)) (zarg Int 1) [zarg Long 0; zarg Int 2] =
  call er_ar (fn3 (fun x m s => dnorm (N:=ER_Num S) x m s false)) (darg (Fin 1)) [darg (Fin 0); darg (Fin 2)].
Proof. rewrite (C41_promoted er_ar); [reflexivity|]. repeat (apply Forall_cons; [right; eexists; reflexivity|]). apply Forall_nil. Qed.
(** with a float argument present, converting the integers to double first would change the type *)
Example C41_promoted_float_ex : common_return_t (I Int) [Flt] = Flt /\ common_return_t Dbl [Flt] = Dbl.
Proof. split; reflexivity. Qed.

(** rbern, rbinom, rradem and pbinom use the parameter type T as it is.  [inf] is GCINT::is_inf at an
    integral type; [tr] is the conversion from double to T.  At a valid integral probability the
    value is still that of the converted argument. *)

Theorem C41_rbern_partial : forall (S : SF) (E : Type) (G : Rng ER E) (inf : Z -> bool) (i : ity) (prob : Z) (e : E),
  inf prob = false -> valid_prob prob ->
  rbern_int (N:=ER_Num S) inf G i prob e = rbern (N:=ER_Num S) G (ofZ (Num:=ER_Num S) prob) e.
Proof. exact (fun S E G inf i prob e H V => rbern_int_agree G inf i prob e H V (bern_sanity_er S prob V)). Qed.
Print Assumptions C41_rbern_partial.
Example C41_rbern_partial_ex (S : SF) : rbern_int (N:=ER_Num S) (fun _ => false) half_rng UInt 1 tt = rbern (N:=ER_Num S) half_rng (Fin 1) tt.
Proof. apply C41_rbern_partial; [reflexivity|now right]. Qed.

Theorem C41_rbern_double_partial : forall (F : TF) (E : Type) (G : Rng b64 E) (inf : Z -> bool) (i : ity) (prob : Z) (e : E),
  inf prob = false -> valid_prob prob ->
  rbern_int (N:=B64_Num F) inf G i prob e = rbern (N:=B64_Num F) G (ofZ (Num:=B64_Num F) prob) e.
Proof. exact (fun F E G inf i prob e H V => rbern_int_agree G inf i prob e H V (bern_sanity_b64 F prob V)). Qed.
Print Assumptions C41_rbern_double_partial.
Example C41_rbern_double_partial_ex (F : TF) (E : Type) (G : Rng b64 E) (e : E) :
  rbern_int (N:=B64_Num F) (fun _ => false) G Bool 1 e = rbern (N:=B64_Num F) G (bofZ 1) e.
Proof. apply C41_rbern_double_partial; [reflexivity|now right]. Qed.

Theorem C41_rradem_partial : forall (S : SF) (E : Type) (G : Rng ER E) (inf : Z -> bool) (i : ity) (prob : Z) (e : E),
  inf prob = false -> valid_prob prob -> radem_signed i ->
  rradem_int (N:=ER_Num S) inf G i prob e = rradem (N:=ER_Num S) G (ofZ (Num:=ER_Num S) prob) e.
Proof. exact (fun S E G inf i prob e H V => rradem_int_agree G inf i prob e H V (radem_sanity_er S prob V)). Qed.
Print Assumptions C41_rradem_partial.
Example C41_rradem_partial_ex (S : SF) : rradem_int (N:=ER_Num S) (fun _ => false) half_rng Int 0 tt = rradem (N:=ER_Num S) half_rng (Fin 0) tt.
Proof. apply C41_rradem_partial; [reflexivity|now left|exact Logic.I]. Qed.

Theorem C41_rradem_double_partial : forall (F : TF) (E : Type) (G : Rng b64 E) (inf : Z -> bool) (i : ity) (prob : Z) (e : E),
  inf prob = false -> valid_prob prob -> radem_signed i ->
  rradem_int (N:=B64_Num F) inf G i prob e = rradem (N:=B64_Num F) G (ofZ (Num:=B64_Num F) prob) e.
Proof. exact (fun F E G inf i prob e H V => rradem_int_agree G inf i prob e H V (radem_sanity_b64 F prob V)). Qed.
Print Assumptions C41_rradem_double_partial.
Example C41_rradem_double_partial_ex (F : TF) (E : Type) (G : Rng b64 E) (e : E) :
  rradem_int (N:=B64_Num F) (fun _ => false) G Long 0 e = rradem (N:=B64_Num F) G (bofZ 0) e.
Proof. apply C41_rradem_double_partial; [reflexivity|now left|exact Logic.I]. Qed.

Theorem C41_rbinom_partial : forall (S : SF) (E : Type) (G : Rng ER E) (inf : Z -> bool) (i : ity) (n prob : Z) (e : E),
  inf prob = false -> (0 <= n)%Z -> valid_prob prob ->
  rbinom_int (N:=ER_Num S) inf G i n prob e = rbinom (N:=ER_Num S) G n (ofZ (Num:=ER_Num S) prob) e.
Proof. exact (fun S E G inf i n prob e H Hn V => rbinom_int_agree G inf i n prob e H Hn V (bern_sanity_er S prob V) (binom_sanity_er S n prob Hn V)). Qed.
Print Assumptions C41_rbinom_partial.
Example C41_rbinom_partial_ex (S : SF) : rbinom_int (N:=ER_Num S) (fun _ => false) half_rng Int 7 1 tt = rbinom (N:=ER_Num S) half_rng 7 (Fin 1) tt.
Proof. apply C41_rbinom_partial; [reflexivity|lia|now right]. Qed.

Theorem C41_rbinom_double_partial : forall (F : TF) (E : Type) (G : Rng b64 E) (inf : Z -> bool) (i : ity) (n prob : Z) (e : E),
  inf prob = false -> (0 <= n)%Z -> valid_prob prob ->
  rbinom_int (N:=B64_Num F) inf G i n prob e = rbinom (N:=B64_Num F) G n (ofZ (Num:=B64_Num F) prob) e.
Proof. exact (fun F E G inf i n prob e H Hn V => rbinom_int_agree G inf i n prob e H Hn V (bern_sanity_b64 F prob V) (binom_sanity_b64 F n prob Hn V)). Qed.
Print Assumptions C41_rbinom_double_partial.
Example C41_rbinom_double_partial_ex (F : TF) (E : Type) (G : Rng b64 E) (e : E) :
  rbinom_int (N:=B64_Num F) (fun _ => false) G Int 7 1 e = rbinom (N:=B64_Num F) G 7 (bofZ 1) e.
Proof. apply C41_rbinom_double_partial; [reflexivity|lia|now right]. Qed.

Theorem C41_pbinom_partial : forall (S : SF) (inf : Z -> bool) (tr : ER -> option Z), trunc_ok tr -> forall x n prob : Z,
  inf prob = false -> (0 <= n)%Z -> valid_prob prob ->
  exists z : Z, pbinom_int (N:=ER_Num S) inf tr x n prob false = Ok z /\
    pbinom (N:=ER_Num S) x n (ofZ (Num:=ER_Num S) prob) false = Fin (IZR z).
Proof. exact pbinom_int_agree. Qed.
Print Assumptions C41_pbinom_partial.
Example C41_pbinom_partial_ex (S : SF) : exists z : Z, pbinom_int (N:=ER_Num S) (fun _ => false) er_to_ll 3 9 1 false = Ok z /\
  pbinom (N:=ER_Num S) 3 9 (Fin 1) false = Fin (IZR z).
Proof. apply C41_pbinom_partial; [exact er_to_ll_ok|reflexivity|lia|now right]. Qed.

(** At an invalid integral probability the samplers return 0, not NaN. *)

Theorem C41_rand_refuted : forall (S : SF) (inf : Z -> bool) (i : ity), exists prob : Z,
  (forall (E : Type) (G : Rng ER E) (e : E),
    rbern_int (N:=ER_Num S) inf G i prob e = (Fin 0, e) /\ rbern (N:=ER_Num S) G (ofZ (Num:=ER_Num S) prob) e = (NaN, e)) /\
  (forall (E : Type) (G : Rng ER E) (e : E),
    rradem_int (N:=ER_Num S) inf G i prob e = (Fin 0, e) /\ rradem (N:=ER_Num S) G (ofZ (Num:=ER_Num S) prob) e = (NaN, e)) /\
  (forall (E : Type) (G : Rng ER E) (e : E),
    rbinom_int (N:=ER_Num S) inf G i 3 prob e = (Fin 0, e) /\ rbinom (N:=ER_Num S) G 3 (ofZ (Num:=ER_Num S) prob) e = (NaN, e)).
Proof. exact rand_int_bad. Qed.
Print Assumptions C41_rand_refuted.
Example C41_rand_refuted_ex (S : SF) : fst (rbern_int (N:=ER_Num S) (fun _ => false) half_rng Int 2 tt) = Fin 0.
Proof. reflexivity. Qed.

(** rradem with an unsigned type and probability 0 does not return -1. *)

Theorem C41_rradem_refuted : forall (S : SF) (inf : Z -> bool), exists (E : Type) (G : Rng ER E) (e : E), forall i : ity, ~ radem_signed i ->
  fst (rradem (N:=ER_Num S) G (Fin 0) e) = Fin (-1) /\ fst (rradem_int (N:=ER_Num S) inf G i 0 e) <> Fin (-1).
Proof. exact rradem_unsigned_wit. Qed.
Print Assumptions C41_rradem_refuted.
Example C41_rradem_refuted_ex (S : SF) : wrap (cond_t UInt Int) (-1) = 4294967295%Z /\ ~ radem_signed UInt.
Proof. split; [reflexivity|exact (fun H => H)]. Qed.

(** pbinom returns T: no NaN, no infinity, and an undefined conversion. *)

Theorem C41_pbinom_refuted : forall (S : SF) (inf : Z -> bool) (tr : ER -> option Z), exists x n prob : Z,
  pbinom_int (N:=ER_Num S) inf tr x n prob false = Ok 0%Z /\ pbinom (N:=ER_Num S) x n (ofZ (Num:=ER_Num S) prob) false = NaN.
Proof. exact (fun S inf tr => ex_intro _ 1%Z (ex_intro _ 5%Z (ex_intro _ 2%Z (pbinom_int_nan S inf tr)))). Qed.
Print Assumptions C41_pbinom_refuted.

Theorem C41_pbinom_log_refuted : forall (S : SF) (inf : Z -> bool) (tr : ER -> option Z), exists x n prob : Z, valid_prob prob /\
  pbinom_int (N:=ER_Num S) inf tr x n prob true = Ok 0%Z /\ pbinom (N:=ER_Num S) x n (ofZ (Num:=ER_Num S) prob) true = MInf.
Proof. exact (fun S inf tr => ex_intro _ (-1)%Z (ex_intro _ 5%Z (ex_intro _ 1%Z (conj (or_intror eq_refl) (pbinom_int_minf S inf tr))))). Qed.
Print Assumptions C41_pbinom_log_refuted.

Theorem C41_pbinom_ub_refuted : forall (S : SF) (inf : Z -> bool) (tr : ER -> option Z), trunc_ok tr -> inf 1%Z = false -> tr MInf = None ->
  exists x n prob : Z, pbinom_int (N:=ER_Num S) inf tr x n prob true = UB /\
    pbinom (N:=ER_Num S) x n (ofZ (Num:=ER_Num S) prob) true = MInf.
Proof. exact (fun S inf tr H1 H2 H3 => ex_intro _ 1%Z (ex_intro _ 5%Z (ex_intro _ 1%Z (pbinom_int_ub S inf tr H1 H2 H3)))). Qed.
Print Assumptions C41_pbinom_ub_refuted.
Example C41_pbinom_ub_refuted_ex (S : SF) : exists x n prob : Z, pbinom_int (N:=ER_Num S) (fun _ => false) er_to_ll x n prob true = UB /\
  pbinom (N:=ER_Num S) x n (ofZ (Num:=ER_Num S) prob) true = MInf.
Proof. apply C41_pbinom_ub_refuted; [exact er_to_ll_ok|reflexivity|reflexivity]. Qed.

(** If is_inf compares with numeric_limits<T>::infinity(), which is 0 for an integral T, then the
    probability 0 is taken to be infinite. *)

Theorem C41_pbinom_zero_refuted : forall (S : SF) (inf : Z -> bool) (tr : ER -> option Z), inf 0%Z = true ->
  exists x n prob : Z, valid_prob prob /\ pbinom_int (N:=ER_Num S) inf tr x n prob false = Ok 0%Z /\
    pbinom (N:=ER_Num S) x n (ofZ (Num:=ER_Num S) prob) false = Fin 1.
Proof. exact (fun S inf tr H => ex_intro _ 1%Z (ex_intro _ 5%Z (ex_intro _ 0%Z (conj (or_introl eq_refl) (pbinom_int_zero S inf tr H))))). Qed.
Print Assumptions C41_pbinom_zero_refuted.
Example C41_pbinom_zero_refuted_ex (S : SF) : exists x n prob : Z, valid_prob prob /\
  pbinom_int (N:=ER_Num S) (Z.eqb 0) er_to_ll x n prob false = Ok 0%Z /\ pbinom (N:=ER_Num S) x n (ofZ (Num:=ER_Num S) prob) false = Fin 1.
Proof. now apply C41_pbinom_zero_refuted. Qed.
