(** C36: rmultinom is reproducible from its engine (false: the first count comes from std::random_device). *)
From Coq Require Import ZArith QArith Reals Lra Lia List.
From Verif Require Import Num Sanity ER ERTac B64 Rand MT SpecRand RandER RandGamma RandMore RandWit Session Witness WitnessSF Vec Seed Multin.
Import ListNotations.
Local Open Scope R_scope.


Theorem C36_rmultinom_refuted : forall F : TF, exists (prob : list b64) (e : mt) (w1 w2 : Z) (a1 a2 : list b64) (e1 e2 : mt) (v1 v2 : Z),
  rmultinom (N:=B64_Num F) mt_rng entropy b64_to_size prob e w1 = Ok (a1, e1, v1) /\
  rmultinom (N:=B64_Num F) mt_rng entropy b64_to_size prob e w2 = Ok (a2, e2, v2) /\
  map b64_to_size a1 = [Some 2; Some 0]%Z /\ map b64_to_size a2 = [Some 0; Some 2]%Z /\ a1 <> a2.
Proof. exact rmultinom_refuted. Qed.
Print Assumptions C36_rmultinom_refuted.

(** Partial: with the word delivered by the device fixed, the result is determined.  Missing is the
    independence from that word, which fails. *)

Theorem C36_word_partial : forall (T E D : Type) (N : Num T) (G : Rng T E) (dev : D -> Z * D) (to_u64 : T -> option Z)
    (prob : list T) (e : E) (w1 w2 : D) (r1 : list T) (e1 : E) (v1 : D) (r2 : list T) (e2 : E) (v2 : D),
  fst (dev w1) = fst (dev w2) ->
  rmultinom G dev to_u64 prob e w1 = Ok (r1, e1, v1) -> rmultinom G dev to_u64 prob e w2 = Ok (r2, e2, v2) ->
  r1 = r2 /\ e1 = e2.
Proof. exact @rmultinom_word. Qed.
Print Assumptions C36_word_partial.
Example C36_word_partial_ex (S : SF) (r1 r2 : list ER) e1 e2 v1 v2 :
  rmultinom (N:=ER_Num S) mid (fun w : bool => (5%Z, w)) er_to_size [Fin (1 / 2); Fin (1 / 2)] tt true = Ok (r1, e1, v1) ->
  rmultinom (N:=ER_Num S) mid (fun w : bool => (5%Z, w)) er_to_size [Fin (1 / 2); Fin (1 / 2)] tt false = Ok (r2, e2, v2) ->
  r1 = r2.
Proof. intros H1 H2. exact (proj1 (C36_word_partial ER unit bool (ER_Num S) mid (fun w : bool => (5%Z, w)) _ _ tt true false r1 e1 v1 r2 e2 v2 eq_refl H1 H2)). Qed.
